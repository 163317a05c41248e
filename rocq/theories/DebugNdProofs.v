(* The assertions of the N-D vector, from those of DebugProofs. *)
From Coq Require Import List Bool Arith Lia.
From Verif Require Import VecModel VecWorld VecSpec VecProofs VecRaw VecOps VecRun VecProps NdVecModel NdVecSpec NdVecProofs NdVecProps
  DebugModel DebugProofs DebugNdModel DebugNdSpec.
Import ListNotations.

Set Default Proof Using "Type".
Section Proofs.
Context {V : Type}.
Variable fails nomem : nat -> bool.
Variable half : nat.
Notation mem := (@mem V).
Notation src := (@src V).
Notation out := (@out V).
Notation dout := (@dout V).

Lemma finish_run : forall {A B} (x : dout A) (y : out A) (f : out A -> out B),
  f Bad = Bad -> f y <> Bad -> (y <> Bad -> x = Run y) -> finish x f = Run (f y).
Proof. intros A B x y f B0 H E. unfold finish. rewrite E; [reflexivity|]. intros ->; auto. Qed.

Lemma dnmake_run : forall e s (m : mem), nmake fails nomem e s m <> Bad -> dnmake fails nomem e s m = Run (nmake fails nomem e s m).
Proof.
  intros e s m H. unfold dnmake, nmake in *. destruct (Nat.eqb_spec (total_size (NVec (RV None 0) (init_sizes e))) 0); auto.
  rewrite finish_run with (y := init_from_value fails nomem (RV None 0) (total_size (NVec (RV None 0) (init_sizes e))) s m); auto.
  intros. apply dinit_value_run; auto.
Qed.
Lemma dnpush_run : forall v sd ss (m : mem), owned (nraw v) m -> ss <> [] -> npush fails nomem half v sd ss m <> Bad ->
  dnpush fails nomem half v sd ss m = Run (npush fails nomem half v sd ss m).
Proof.
  intros v sd ss m O N H. unfold dnpush, npush in *. destruct (negb (match_sub v sd)); auto.
  assert (O1 : owned (nraw (init_if_empty v sd)) m) by (unfold init_if_empty; destruct (total_size v =? 0); auto).
  rewrite dprepare_push_back_run; auto; [|intros X; rewrite X in H; auto]. cbn [bind].
  destruct (prepare_push_back fails nomem half _ _ _ m) as [r m1|r m1|]; auto.
  destruct (ptr r) as [b|].
  - destruct (copy fails b _ ss m1); auto. apply drethrow_run; auto using ddestroy_run.
  - destruct ss; congruence.
Qed.
Lemma dnpop_run : forall v (m : mem), npop v m <> Bad -> dnpop v m = Run (npop v m).
Proof.
  intros v m H. unfold dnpop, npop in *. destruct (top v =? 0); [congruence|]. destruct (ptr (nraw v)); auto.
  apply dthen_run; auto using ddestroy_run.
Qed.
Lemma dnprepare_insert_run : forall v off count es (m : mem), owned (nraw v) m -> 0 < count * es -> off <= total_size v ->
  nprepare_insert fails nomem half v off count es m <> Bad ->
  dnprepare_insert fails nomem half v off count es m = Run (nprepare_insert fails nomem half v off count es m).
Proof.
  intros v off count es m O N L H. unfold dnprepare_insert, nprepare_insert in *.
  rewrite finish_run with (y := prepare_insert fails nomem half (nraw v) (total_size v) off count es m); auto.
  intros. apply dprepare_insert_run; auto.
Qed.
Lemma dninsert_run : forall v pos count sd ss (m : mem), owned (nraw v) m ->
  pos * element_size v <= total_size (init_if_empty v sd) -> ninsert fails nomem half v pos count sd ss m <> Bad ->
  dninsert fails nomem half v pos count sd ss m = Run (ninsert fails nomem half v pos count sd ss m).
Proof.
  intros v pos count sd ss m O L H. unfold dninsert, ninsert in *. destruct (top v <? pos); auto.
  destruct (Nat.eqb_spec count 0) as [|C]; auto. destruct (negb (match_sub v sd)); auto. destruct (Nat.eqb_spec (product sd) 0) as [|E]; auto.
  assert (O1 : owned (nraw (init_if_empty v sd)) m) by (unfold init_if_empty; destruct (total_size v =? 0); auto).
  rewrite dnprepare_insert_run; auto; [|nia|intros X; rewrite X in H; auto]. cbn [bind].
  destruct (nprepare_insert fails nomem half _ _ _ _ m) as [v2 m1|v2 m1|]; auto.
  destruct (ptr (nraw v2)) as [b|]; [|congruence].
  destruct (copy_slices fails count b _ ss 0 m1) as [?|[[f l] k] m2|]; auto.
  apply dthen_run; auto using ddestroy_run. intros. apply drethrow_run; auto using ddestroy_run.
Qed.
Lemma dninsert_range_run : forall v pos sd sss (m : mem), owned (nraw v) m ->
  pos * element_size v <= total_size (init_if_empty v sd) -> ninsert_range fails nomem half v pos sd sss m <> Bad ->
  dninsert_range fails nomem half v pos sd sss m = Run (ninsert_range fails nomem half v pos sd sss m).
Proof.
  intros v pos sd sss m O L H. unfold dninsert_range, ninsert_range in *. destruct (top v <? pos); auto.
  destruct (Nat.eqb_spec (length sss) 0) as [|C]; auto. destruct (negb (match_sub v sd)); auto. destruct (Nat.eqb_spec (product sd) 0) as [|E]; auto.
  assert (O1 : owned (nraw (init_if_empty v sd)) m) by (unfold init_if_empty; destruct (total_size v =? 0); auto).
  rewrite dnprepare_insert_run; auto; [|nia|intros X; rewrite X in H; auto]. cbn [bind].
  destruct (nprepare_insert fails nomem half _ _ _ _ m) as [v2 m1|v2 m1|]; auto.
  destruct (ptr (nraw v2)) as [b|]; [|congruence].
  destruct (copy fails b _ (concat sss) m1) as [?|d m2|]; auto.
  apply dthen_run; auto using ddestroy_run. intros. apply drethrow_run; auto using ddestroy_run.
Qed.
Lemma dnerase__run : forall v pos count es (m : mem), 0 < count * es -> nerase_ fails v pos count es m <> Bad ->
  dnerase_ fails v pos count es m = Run (nerase_ fails v pos count es m).
Proof.
  intros v pos count es m N H. unfold dnerase_, nerase_ in *.
  rewrite finish_run with (y := raw_erase fails (nraw v) (total_size v) (pos * element_size v) count es m); auto.
  intros. apply derase_run; auto.
Qed.
Lemma dnerase_run : forall v pos (m : mem), top v = 0 \/ 0 < element_size v -> nerase fails v pos m <> Bad ->
  dnerase fails v pos m = Run (nerase fails v pos m).
Proof.
  intros v pos m N H. unfold dnerase, nerase in *. destruct (top v <? pos); auto. destruct (Nat.eqb_spec (top v) 0); auto.
  apply dnerase__run; auto. lia.
Qed.
Lemma dnerase_range_run : forall v a b (m : mem), nerase_range fails v a b m <> Bad ->
  dnerase_range fails v a b m = Run (nerase_range fails v a b m).
Proof.
  intros v a b m H. unfold dnerase_range, nerase_range in *. destruct (Nat.eqb_spec (element_size v) 0) as [E|E].
  { rewrite orb_true_r in *. auto. }
  destruct ((top v <? a) || (top v <? b)); cbn [orb] in *; auto. destruct (Nat.ltb_spec b a); auto. destruct (Nat.eqb_spec a b); auto.
  destruct (top v <? b - a); auto. apply dnerase__run; auto. nia.
Qed.
Lemma dnresize_run : forall v n s (m : mem), owned (nraw v) m -> nresize fails nomem half v n s m <> Bad ->
  dnresize fails nomem half v n s m = Run (nresize fails nomem half v n s m).
Proof.
  intros v n s m O H. unfold dnresize, nresize in *.
  rewrite finish_run with (y := raw_resize fails nomem half (nraw v) (total_size v) (n * element_size v) s m); auto.
  intros. apply dresize_run; auto.
Qed.
Lemma dnresize_all_run : forall v e s (m : mem), owned (nraw v) m -> nresize_all fails nomem half v e s m <> Bad ->
  dnresize_all fails nomem half v e s m = Run (nresize_all fails nomem half v e s m).
Proof.
  intros v n s m O H. unfold dnresize_all, nresize_all in *.
  rewrite finish_run with (y := raw_resize fails nomem half (nraw v) (total_size v) (product n) s m); auto.
  intros. apply dresize_run; auto.
Qed.
Lemma dnclear_run : forall v (m : mem), nclear v m <> Bad -> dnclear v m = Run (nclear v m).
Proof.
  intros v m H. unfold dnclear, nclear in *. destruct (total_size v =? 0); auto. destruct (ptr (nraw v)); auto.
  apply dthen_run; auto using ddestroy_run.
Qed.
Lemma dnassign_run : forall v e s (m : mem), product e <> 0 \/ cap (nraw v) <> 0 -> nassign fails nomem half v e s m <> Bad ->
  dnassign fails nomem half v e s m = Run (nassign fails nomem half v e s m).
Proof.
  intros v e s m O H. unfold dnassign, nassign in *.
  rewrite finish_run with (y := raw_assign fails nomem half (nraw v) (total_size v) (product e) s m); auto.
  intros. apply dassign_run; auto.
Qed.
Lemma dnreserve_run : forall v n (m : mem), owned (nraw v) m -> nreserve fails nomem v n m <> Bad ->
  dnreserve fails nomem v n m = Run (nreserve fails nomem v n m).
Proof.
  intros v n m O H. unfold dnreserve. change (nreserve fails nomem v n m) with (keep_descs v (raw_reserve fails nomem (nraw v) (total_size v) n m)) in *.
  apply finish_run; auto. intros. apply dreserve_run; auto.
Qed.
Lemma dnshrink_run : forall v (m : mem), owned (nraw v) m -> nshrink fails nomem v m <> Bad ->
  dnshrink fails nomem v m = Run (nshrink fails nomem v m).
Proof.
  intros v m O H. unfold dnshrink. change (nshrink fails nomem v m) with (keep_descs v (raw_shrink fails nomem (nraw v) (total_size v) m)) in *.
  apply finish_run; auto. intros. apply dshrink_run; auto.
Qed.
Lemma dndestruct_run : forall v (m : mem), ndestruct v m <> Bad -> dndestruct v m = Run (ndestruct v m).
Proof. intros. apply ddestruct_vec_run; auto. Qed.
Lemma dncopy_run : forall v xs (m : mem), vgood m (Vec (nraw v) (total_size v)) xs -> ncopy fails nomem v m <> Bad ->
  dncopy fails nomem v m = Run (ncopy fails nomem v m).
Proof.
  intros v xs m G H. unfold dncopy, ncopy in *. destruct (Nat.eqb_spec (total_size v) 0) as [E|E].
  - apply dthen_run; auto using dndestruct_run.
  - rewrite dcopy_construct_run with (xs := xs); auto; [|intros X; rewrite X in H; auto]. cbn [bind].
    destruct (copy_construct fails nomem _ m); auto. apply dthen_run; auto using dndestruct_run.
Qed.

Lemma plain_bad : @plain V Bad = Bad. Proof. reflexivity. Qed.
Lemma iter_bad : @iter V Bad = Bad. Proof. reflexivity. Qed.

(* one operation *)
Theorem dnexec_spec : forall op (m : mem) v a, ngood m v a -> fresh m -> nlegal a op -> (ninserts op -> forall t, nomem t = false) ->
  dnexec fails nomem half op v m = if nhalts op (cap (nraw v)) then Stop else Run (nexec fails nomem half op v m).
Proof.
  intros op m [r ds] a G F L NI.
  pose proof (nexec_spec fails nomem half op m (NVec r ds) a G F L NI) as P.
  assert (NB : nexec fails nomem half op (NVec r ds) m <> Bad) by (intros X; rewrite X in P; exact P). clear P.
  pose proof G as ((W1 & W2 & W3) & Gr & D). cbn [nraw descs] in Gr, D.
  assert (O : owned (nraw (NVec r ds)) m) by (intros b Hb; eapply good_lt; eauto).
  assert (OFF : forall p sd, p <= length (slices a) -> p * element_size (NVec r ds) <= total_size (init_if_empty (NVec r ds) sd)).
  { intros p sd Hp. subst ds. rewrite esize_init by auto. unfold init_if_empty. rewrite total_init.
    destruct (Nat.eqb_spec (length (slices a) * vol (sub a)) 0) as [Z|Z].
    - apply empty_iff in Z; [|apply G]. rewrite Z in Hp. simpl in Hp. replace p with 0 by lia. simpl. lia.
    - rewrite total_init. nia. }
  inversion L; subst op; cbn [dnexec nexec nhalts] in *;
    try (apply finish_run; auto; intros).
  - apply dnpush_run; auto. destruct xs; [simpl in *; lia|discriminate].
  - apply dnpop_run; auto.
  - apply dninsert_run; auto.
  - apply dninsert_range_run; auto.
  - apply dnerase_run; auto. subst ds. rewrite top_init, esize_init by auto.
    destruct (slices a) eqn:SL; auto. right. apply Nat.neq_0_lt_0. apply W2. congruence.
  - apply dnerase_range_run; auto.
  - apply dnresize_run; auto.
  - apply dnresize_all_run; auto.
  - destruct (Nat.eqb_spec (vol (n :: r0)) 0) as [Z|Z].
    + cbn [andb]. destruct (Nat.eqb_spec (cap (nraw (NVec r ds))) 0) as [C|C].
      * unfold dnassign, draw_assign. rewrite product_vol, Z, C. reflexivity.
      * apply finish_run; auto. intros. apply dnassign_run; auto.
    + cbn [andb]. apply finish_run; auto. intros. apply dnassign_run; auto.
  - apply dnclear_run; auto.
  - apply dnreserve_run; auto.
  - apply dnshrink_run; auto.
  - subst ds. eapply dncopy_run; eauto. apply (as_vec m r a G).
Qed.

Lemma nprudent_halts : forall op (m : mem) v a, ngood m v a -> nprudent op a -> nhalts op (cap (nraw v)) = false.
Proof.
  intros op m v a (W & G & _) P. destruct op; auto. cbn [nhalts nprudent] in *.
  destruct (Nat.eqb_spec (vol e) 0) as [Z|Z]; auto. cbn [andb]. apply Nat.eqb_neq.
  pose proof (good_cap _ _ _ G) as C. rewrite (flat_len a W) in C. specialize (P Z). destruct W as (_ & W2 & _).
  specialize (W2 P). destruct (slices a); [congruence|simpl in *; nia].
Qed.
End Proofs.

Lemma dnrun_quiet : forall V half ops (m : @mem V) v a, valid m v a -> nlegal_all ops a -> nprudent_play ops a ->
  dnrun never never half ops v m = Some (nrun never never half ops v m).
Proof.
  intros V half. induction ops as [|op ops IH]; intros m v a Va L Q; auto.
  destruct L as [L1 L2], Q as [Q1 Q2]. cbn [nrun dnrun]. pose proof Va as (G & F & A).
  pose proof (nexec_spec never never half op m v a G F L1 (fun _ _ => eq_refl)) as P.
  rewrite (dnexec_spec never never half op m v a G F L1 (fun _ _ => eq_refl)), (nprudent_halts op m v a G Q1).
  destruct (nexec never never half op v m) as [[v1 it] m1|[v1 it] m1|]; [| |contradiction]; cbn [npost] in P.
  - destruct P as (a1 & R & Af & _). unfold neffect in *. rewrite R in *.
    rewrite (IH m1 v1 a1 (valid_after _ _ _ _ _ _ Va Af) L2 Q2). cbn [option_map].
    destruct (nrun never never half ops v1 m1) as [[[? ?] ?]|]; auto.
  - destruct P as (a1 & Af & [[R ->]|[[[t T]|[t T]] _]]); [|discriminate|discriminate].
    unfold neffect in *. rewrite R in *.
    rewrite (IH m1 v1 a (valid_after _ _ _ _ _ _ Va Af) L2 Q2). cbn [option_map].
    destruct (nrun never never half ops v1 m1) as [[[? ?] ?]|]; auto.
Qed.
