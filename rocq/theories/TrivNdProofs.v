(* Multidimensional vectors of trivial elements do what those of other elements do. *)
From Coq Require Import List Bool Arith Lia.
From Verif Require Import VecModel VecWorld VecSpec VecProofs VecRaw VecOps VecProps NdVecModel NdVecSpec NdVecProofs NdVecProps.
From Verif Require Import TrivModel TrivProofs TrivRun TrivNdModel TrivNdSpec.
Import ListNotations.

Set Default Proof Using "Type".
Section Sim.
Context {V : Type}.
Variable nomem : nat -> bool.
Variable half : nat.
Variable ptrs : nat -> bool.
Notation mem := (@mem V).
Notation src := (@src V).
Notation arr := (@arr V).
Notation nof := (fun _ : nat => false).

Ltac go L := let H := fresh "H" in pose proof L as H;
  match type of H with sim ?x _ =>
    let a := fresh "a" in let m1 := fresh "m1" in let mt1 := fresh "mt1" in let R1 := fresh "R1" in let E := fresh "E" in
    destruct x as [a m1|a m1|] eqn:E;
    [destruct H as (mt1 & -> & R1)|destruct H as (mt1 & -> & R1)|exact I]; cbn [andthen rethrow] in *
  end.
Ltac fin := cbn [sim]; eexists; (split; [reflexivity|auto]).

Lemma elsewhere_ext : forall b (xs : list V), elsewhere b (map Ext xs).
Proof. intros b xs s H. apply in_map_iff in H. destruct H as (x & <- & _). exact I. Qed.
Lemma elsewhere_exts : forall b (xss : list (list V)), elsewhere b (concat (map (map Ext) xss)).
Proof. intros b xss. rewrite <- concat_map. apply elsewhere_ext. Qed.

Lemma sim_nmake : forall e (s : src) (m mt : mem), Rel m mt -> sim (nmake nof nomem e s m) (t_nmake nomem e s mt).
Proof.
  intros e s m mt R. unfold nmake, t_nmake. cbv zeta. destruct (_ =? 0); [fin|].
  go (sim_init_from_value nomem (RV None 0) (total_size (NVec (RV None 0) (init_sizes e))) s m mt R); fin.
Qed.
Lemma sim_npush : forall p v sd (xs : list V) (m mt : mem), Rel m mt -> mine (nraw v) m ->
  sim (npush nof nomem half v sd (map Ext xs) m) (t_npush nomem half p v sd (map Ext xs) mt).
Proof.
  intros p v sd xs m mt R M. unfold npush, t_npush. destruct (match_sub v sd); cbn [negb]; [|fin]. cbv zeta.
  assert (M1 : mine (nraw (init_if_empty v sd)) m) by (unfold init_if_empty; destruct (_ =? 0); auto).
  set (v1 := init_if_empty v sd) in *.
  go (sim_prepare_push_back nomem half (nraw v1) (total_size v1) (total_size v1 + product sd) m mt R M1); [|fin].
  destruct (ptr a) as [b|]; [|destruct (map Ext xs); [fin|exact I]].
  go (sim_copy p b (total_size v1) (map Ext xs) _ _ R1 (or_intror (elsewhere_ext b xs))); [fin|].
  go (sim_destroy b (total_size v1) a0 _ _ R0); [fin|exact I].
Qed.
Lemma sim_npop : forall v (m mt : mem), Rel m mt -> sim (npop v m) (t_npop v mt).
Proof.
  intros v m mt R. unfold npop, t_npop. destruct (top v =? 0); [exact I|]. cbv zeta. destruct (ptr (nraw v)) as [b|]; [|exact I].
  go (sim_destroy b (total_size (set_top v (nraw v) (top v - 1))) (total_size v) m mt R); [fin|exact I].
Qed.
Lemma sim_nprepare_insert : forall v off count es (m mt : mem), Rel m mt -> mine (nraw v) m -> off <= total_size v ->
  sim (nprepare_insert nof nomem half v off count es m) (t_nprepare_insert nomem half v off count es mt).
Proof.
  intros v off count es m mt R M L. unfold nprepare_insert, t_nprepare_insert.
  go (sim_prepare_insert nomem half (nraw v) (total_size v) off count es m mt R M L); destruct a; fin.
Qed.
Lemma sim_copy_slices : forall p n b first (xs : list V) k m mt, Rel m mt ->
  sim (copy_slices nof n b first (map Ext xs) k m) (t_copy_slices p n b first (map Ext xs) k mt).
Proof.
  induction n; intros b first xs k m mt R; cbn [copy_slices t_copy_slices]; [fin|].
  go (sim_copy p b first (map Ext xs) _ _ R (or_intror (elsewhere_ext b xs))); [apply IHn; auto|fin].
Qed.
Lemma within : forall m v (a : arr) pos sd, ngood m v a -> pos <= top v -> pos * element_size v <= total_size (init_if_empty v sd).
Proof.
  intros m [r ds] a pos sd (W & G & D) L. cbn [descs] in D. subst ds. pose proof W as (W1 & W2 & W3).
  unfold init_if_empty. rewrite total_init. rewrite top_init in L. rewrite esize_init by auto.
  destruct (Nat.eqb_spec (length (slices a) * vol (sub a)) 0) as [Z|Z].
  - apply empty_iff in Z; auto. rewrite Z in L. cbn in L. assert (pos = 0) by lia. subst. cbn. lia.
  - rewrite total_init. apply Nat.mul_le_mono_r. auto.
Qed.
Lemma mine_empty : forall m v sd, mine (nraw v) m -> mine (V := V) (nraw (init_if_empty v sd)) m.
Proof. intros. unfold init_if_empty. destruct (_ =? 0); auto. Qed.
Lemma sim_ninsert : forall p v pos count sd (xs : list V) (m mt : mem) a, Rel m mt -> ngood m v a ->
  sim (ninsert nof nomem half v pos count sd (map Ext xs) m) (t_ninsert nomem half p v pos count sd (map Ext xs) mt).
Proof.
  intros p v pos count sd xs m mt a R G. assert (M : mine (nraw v) m) by (intros b Hb; eapply good_lt; [apply G|auto]).
  unfold ninsert, t_ninsert. destruct (Nat.ltb_spec (top v) pos) as [|LE]; [exact I|]. destruct (count =? 0); [fin|].
  destruct (match_sub v sd); cbn [negb]; [|fin]. cbv zeta. destruct (product sd =? 0); [fin|].
  go (sim_nprepare_insert (init_if_empty v sd) (pos * element_size v) count (product sd) m mt R (mine_empty m v sd M) (within m v a pos sd G LE)); [|fin].
  destruct (ptr (nraw a0)) as [b|]; [|exact I].
  go (sim_copy_slices p count b (pos * element_size v) xs 0 _ _ R1).
  - fin.
  - destruct a1 as [[f l] k]. go (sim_destroy b f l _ _ R0); [|exact I].
    go (sim_destroy b (pos * element_size v + count * product sd) (total_size a0 + count * product sd) _ _ R2); [fin|exact I].
Qed.
Lemma sim_ninsert_range : forall p v pos sd (xss : list (list V)) (m mt : mem) a, Rel m mt -> ngood m v a ->
  sim (ninsert_range nof nomem half v pos sd (map (map Ext) xss) m) (t_ninsert_range nomem half p v pos sd (map (map Ext) xss) mt).
Proof.
  intros p v pos sd xss m mt a R G. assert (M : mine (nraw v) m) by (intros b Hb; eapply good_lt; [apply G|auto]).
  unfold ninsert_range, t_ninsert_range. destruct (Nat.ltb_spec (top v) pos) as [|LE]; [exact I|].
  set (n := length (map (map Ext) xss)). destruct (n =? 0); [fin|].
  destruct (match_sub v sd); cbn [negb]; [|fin]. cbv zeta. destruct (product sd =? 0); [fin|].
  go (sim_nprepare_insert (init_if_empty v sd) (pos * element_size v) n (product sd) m mt R (mine_empty m v sd M) (within m v a pos sd G LE)); [|fin].
  destruct (ptr (nraw a0)) as [b|]; [|exact I].
  go (sim_copy p b (pos * element_size v) (concat (map (map Ext) xss)) _ _ R1 (or_intror (elsewhere_exts b xss))).
  - fin.
  - go (sim_destroy b (pos * element_size v + (a1 - pos * element_size v) / product sd * product sd) a1 _ _ R0); [|exact I].
    go (sim_destroy b (pos * element_size v + n * product sd) (total_size a0 + n * product sd) _ _ R2); [fin|exact I].
Qed.
Lemma sim_nerase_ : forall v pos count es (m mt : mem), Rel m mt -> sim (nerase_ nof v pos count es m) (t_nerase_ v pos count es mt).
Proof.
  intros v pos count es m mt R. unfold nerase_, t_nerase_. cbv zeta.
  go (sim_raw_erase (nraw v) (total_size v) (pos * element_size v) count es m mt R); destruct a; fin.
Qed.
Lemma sim_nerase : forall v pos (m mt : mem), Rel m mt -> sim (nerase nof v pos m) (t_nerase v pos mt).
Proof. intros. unfold nerase, t_nerase. destruct (_ <? _); [exact I|]. destruct (_ =? _); [fin|apply sim_nerase_; auto]. Qed.
Lemma sim_nerase_range : forall v i j (m mt : mem), Rel m mt -> sim (nerase_range nof v i j m) (t_nerase_range v i j mt).
Proof.
  intros. unfold nerase_range, t_nerase_range. destruct (_ || _); [exact I|]. destruct (j <? i); [fin|]. destruct (i =? j); [fin|].
  destruct (_ <? _); [fin|apply sim_nerase_; auto].
Qed.
Lemma sim_nresize : forall v n (s : src) (m mt : mem), Rel m mt -> mine (nraw v) m -> sim (nresize nof nomem half v n s m) (t_nresize nomem half v n s mt).
Proof.
  intros v n s m mt R M. unfold nresize, t_nresize.
  go (sim_raw_resize nomem half (nraw v) (total_size v) (n * element_size v) s m mt R M); fin.
Qed.
Lemma sim_nresize_all : forall v e (s : src) (m mt : mem), Rel m mt -> mine (nraw v) m ->
  sim (nresize_all nof nomem half v e s m) (t_nresize_all nomem half v e s mt).
Proof.
  intros v e s m mt R M. unfold nresize_all, t_nresize_all.
  go (sim_raw_resize nomem half (nraw v) (total_size v) (product e) s m mt R M); fin.
Qed.
Lemma sim_nclear : forall v (m mt : mem), Rel m mt -> sim (nclear v m) (t_nclear v mt).
Proof.
  intros v m mt R. unfold nclear, t_nclear. destruct (_ =? 0); [fin|]. destruct (ptr (nraw v)) as [b|]; [|exact I].
  go (sim_destroy b 0 (total_size v) m mt R); [fin|exact I].
Qed.
Lemma sim_nassign : forall v e (s : src) (m mt : mem), Rel m mt -> sim (nassign nof nomem half v e s m) (t_nassign nomem half v e s mt).
Proof.
  intros v e s m mt R. unfold nassign, t_nassign.
  go (sim_raw_assign nomem half (nraw v) (total_size v) (product e) s m mt R); destruct a; fin.
Qed.
Lemma sim_nreserve : forall v n (m mt : mem), Rel m mt -> mine (nraw v) m -> sim (nreserve nof nomem v n m) (t_nreserve nomem v n mt).
Proof. intros v n m mt R M. unfold nreserve, t_nreserve. go (sim_raw_reserve nomem (nraw v) (total_size v) n m mt R M); fin. Qed.
Lemma sim_nshrink : forall v (m mt : mem), Rel m mt -> mine (nraw v) m -> sim (nshrink nof nomem v m) (t_nshrink nomem v mt).
Proof. intros v m mt R M. unfold nshrink, t_nshrink. go (sim_raw_shrink nomem (nraw v) (total_size v) m mt R M); fin. Qed.
Lemma sim_ndestruct : forall v (m mt : mem), Rel m mt -> sim (ndestruct v m) (t_ndestruct v mt).
Proof. intros. unfold ndestruct, t_ndestruct. apply sim_destruct; auto. Qed.
Lemma sim_ncopy : forall v (m mt : mem), Rel m mt -> mine (nraw v) m -> sim (ncopy nof nomem v m) (t_ncopy nomem v mt).
Proof.
  intros v m mt R M. unfold ncopy, t_ncopy. destruct (_ =? 0).
  - go (sim_ndestruct v m mt R); [fin|exact I].
  - go (sim_copy_construct nomem (Vec (nraw v) (total_size v)) m mt R M); [|fin].
    go (sim_ndestruct v _ _ R1); [fin|exact I].
Qed.
Lemma sim_plain : forall x xt, sim (V := V) x xt -> sim (plain x) (plain xt).
Proof. intros x xt H. destruct x as [a m1|a m1|]; [| |exact I]; destruct H as (mt1 & -> & R1); cbn; eauto. Qed.
Lemma sim_iter : forall x xt, sim (V := V) x xt -> sim (iter x) (iter xt).
Proof. intros x xt H. destruct x as [[v k] m1|[v k] m1|]; [| |exact I]; destruct H as (mt1 & -> & R1); cbn; eauto. Qed.
Lemma sim_nexec : forall op v (m mt : mem) a, Rel m mt -> ngood m v a ->
  sim (nexec nof nomem half op v m) (t_nexec nomem half ptrs op v mt).
Proof.
  intros op v m mt a R G. assert (M : mine (nraw v) m) by (intros b Hb; eapply good_lt; [apply G|auto]).
  destruct op; cbn [nexec t_nexec]; (apply sim_plain || apply sim_iter).
  - apply sim_npush; auto. - apply sim_npop; auto. - eapply sim_ninsert; eauto. - eapply sim_ninsert_range; eauto.
  - apply sim_nerase; auto. - apply sim_nerase_range; auto. - apply sim_nresize; auto. - apply sim_nresize_all; auto.
  - apply sim_nassign; auto. - apply sim_nclear; auto. - apply sim_nreserve; auto. - apply sim_nshrink; auto. - apply sim_ncopy; auto.
Qed.
End Sim.

(* ---- an operation allocates at most once, before it changes an element ---- *)
Section Alloc.
Context {V : Type}.
Variable nomem : nat -> bool.
Variable half : nat.
Variable ptrs : nat -> bool.
Notation mem := (@mem V).
Notation nof := (fun _ : nat => false).
Ltac one := unfold allocate; match goal with |- context [nomem (tick ?m)] => destruct (nomem (tick m)) eqn:?; [right; split; auto|left; reflexivity] end.

Definition nstarved_v (op : @nop V) (v : nvec) : nvec :=
  match op with
  | NPush sd _ => init_if_empty v sd
  | NInsert _ _ sd _ | NInsertRange _ sd _ => set_top (init_if_empty v sd) (nraw v) 0
  | _ => v
  end.
Lemma raw_empty : forall v sd, nraw (init_if_empty v sd) = nraw v.
Proof. intros. unfold init_if_empty. destruct (_ =? 0); auto. Qed.
Lemma once_nexec : forall op v (m : mem),
  t_nexec nomem half ptrs op v m = t_nexec nof half ptrs op v m \/
  (nomem (tick m) = true /\ t_nexec nomem half ptrs op v m = Exc (nstarved_v op v, None) (step m) /\
   match op with
   | NPush sd _ | NInsert _ _ sd _ | NInsertRange _ sd _ => match_sub v sd = true
   | _ => True
   end).
Proof.
  intros op v m. destruct op; cbn [t_nexec nstarved_v]; try (left; reflexivity).
  - unfold t_npush. destruct (match_sub v sd); cbn [negb]; [|left; auto]. cbv zeta. unfold t_prepare_push_back.
    set (v1 := init_if_empty v sd). destruct (_ <? _); [|left; auto].
    destruct (once_relocate nomem (nraw v1) (total_size v1) (increase half (cap (nraw v1)) (total_size v1 + product sd)) m) as [->|[T ->]]; [left; auto|].
    right. split; auto. split; auto. destruct v1; auto.
  - unfold t_ninsert. destruct (_ <? pos); [left; auto|]. destruct (count =? 0); [left; auto|].
    destruct (match_sub v sd); cbn [negb]; [|left; auto]. cbv zeta. destruct (product sd =? 0); [left; auto|].
    unfold t_nprepare_insert, t_prepare_insert. cbv zeta. rewrite raw_empty. destruct (_ <? _); [|left; auto]. one.
  - unfold t_ninsert_range. destruct (_ <? pos); [left; auto|]. destruct (_ =? 0); [left; auto|].
    destruct (match_sub v sd); cbn [negb]; [|left; auto]. cbv zeta. destruct (product sd =? 0); [left; auto|].
    unfold t_nprepare_insert, t_prepare_insert. cbv zeta. rewrite raw_empty. destruct (_ <? _); [|left; auto]. one.
  - unfold t_nresize, t_raw_resize. destruct (_ <? _); [left; auto|]. destruct (_ <? _); [|left; auto]. destruct (_ <? _); [|left; auto].
    cbv zeta. one. split; auto. destruct v; auto.
  - unfold t_nresize_all, t_raw_resize. destruct (_ <? _); [left; auto|]. destruct (_ <? _); [|left; auto]. destruct (_ <? _); [|left; auto].
    cbv zeta. one. split; auto. destruct v; auto.
  - unfold t_nassign, t_raw_assign. destruct (_ && _); [left; auto|]. cbv zeta. one. split; auto. destruct v; auto.
  - unfold t_nreserve, t_raw_reserve. destruct (_ <? _); [|left; auto].
    destruct (once_relocate nomem (nraw v) (total_size v) n m) as [->|[T ->]]; [left; auto|]. right. split; auto. split; auto. destruct v; auto.
  - unfold t_nshrink, t_raw_shrink. destruct (ptr (nraw v)); [|left; auto]. destruct (_ =? _); [left; auto|]. destruct (_ <? _); [|left; auto].
    destruct (once_relocate nomem (nraw v) (total_size v) (total_size v) m) as [->|[T ->]]; [left; auto|]. right. split; auto. split; auto. destruct v; auto.
  - unfold t_ncopy. destruct (_ =? 0); [left; auto|].
    destruct (once_copy nomem (Vec (nraw v) (total_size v)) m) as [->|[T ->]]; [left; auto|]. right. split; auto.
Qed.
End Alloc.

(* ---- states ---- *)
Section Steps.
Context {V : Type}.
Variable nomem : nat -> bool.
Variable half : nat.
Variable ptrs : nat -> bool.
Notation mem := (@mem V).
Notation arr := (@arr V).
Notation nof := (fun _ : nat => false).
Implicit Types (m mt : mem) (v : nvec) (a : arr).

(* some memory of the generic vectors holds the slices *)
Definition tvalid mt v a : Prop := exists m, valid m v a /\ Rel m mt.

Lemma tvalid_descs : forall mt v a, tvalid mt v a -> descs v = init_sizes (length (slices a) :: sub a).
Proof. intros mt v a (m & ((_ & _ & D) & _) & _). auto. Qed.
Lemma tvalid_wf : forall mt v a, tvalid mt v a -> nwf a.
Proof. intros mt v a (m & ((W & _ & D) & _) & _). auto. Qed.
Lemma tvalid_get : forall mt v a, tvalid mt v a -> length (flat a) <= cap (nraw v) /\
  match ptr (nraw v) with
  | None => cap (nraw v) = 0 /\ flat a = []
  | Some b => exists lt, blk mt b = Some lt /\ length lt = cap (nraw v) /\
      forall j y, nth_error (flat a) j = Some y -> nth_error lt j = Some (Some y)
  end.
Proof.
  intros mt v a (m & ((W & G & D) & _) & R). split; [eapply good_cap; eauto|]. unfold good in G. destruct (ptr (nraw v)) as [b|]; auto.
  destruct G as (Lb & Lc & E). destruct (rel_blk _ _ _ _ R E) as (lt & Et & K1 & K2).
  exists lt. split; auto. split. { rewrite K1, app_length, somes_len, raws_len. lia. }
  intros j y Hy. apply K2. rewrite cells_nth. assert (j < length (flat a)) by (apply nth_error_Some; congruence).
  destruct (Nat.ltb_spec j (length (flat a))); [|lia]. rewrite Hy. auto.
Qed.
Lemma tvalid_set : forall mt mt' v a b lt' a', tvalid mt v a -> ptr (nraw v) = Some b -> blk mt' b = Some lt' ->
  length lt' = cap (nraw v) -> nwf a' -> length (flat a') <= cap (nraw v) ->
  (forall j y, nth_error (flat a') j = Some y -> nth_error lt' j = Some (Some y)) ->
  (forall b', b' <> b -> blk mt' b' = blk mt b') -> next mt' = next mt ->
  tvalid mt' (NVec (nraw v) (init_sizes (length (slices a') :: sub a'))) a'.
Proof.
  intros mt mt' v a b lt' a' (m & ((W0 & G & D) & F & A) & R) P B L W Ly C O N.
  unfold good in G. rewrite P in G. destruct G as (Lb & Lc & E).
  exists (Mem (fun b' => if b' =? b then Some (somes (flat a') ++ raws (cap (nraw v) - length (flat a'))) else blk m b') (next m) (tick mt')).
  destruct R as (RN & RT & RB & RF). split.
  - split; [|split].
    + split; auto. split; [|auto]. unfold good. cbn [nraw]. rewrite P. cbn. rewrite Nat.eqb_refl. auto.
    + intros b' H. cbn in *. destruct (Nat.eqb_spec b' b); [lia|apply F; auto].
    + intros b' H. cbn in *. destruct (Nat.eqb_spec b' b); [congruence|apply A; auto].
  - split; [cbn; congruence|]. split; [auto|]. split; cbn.
    + intros b'. destruct (Nat.eqb_spec b' b) as [->|Hb].
      * rewrite B. split; [rewrite app_length, somes_len, raws_len; lia|].
        intros j y. rewrite cells_nth. destruct (Nat.ltb_spec j (length (flat a'))).
        -- destruct (nth_error (flat a') j) as [z|] eqn:Ez; cbn; intros H0; [|discriminate]. injection H0 as <-. auto.
        -- destruct (j <? _); discriminate.
      * rewrite O by auto. apply RB.
    + intros b' H. destruct (Nat.eqb_spec b' b); [lia|auto].
Qed.
Lemma tvalid_step : forall mt v a, tvalid mt v a -> tvalid (step mt) v a.
Proof. intros mt v a (m & (G & F & A) & R). exists (step m). split; [|apply rel_step; auto]. split; [|split]; auto. Qed.
Lemma tvalid_empty : forall d, 0 < d -> tvalid mem0 (nempty (S d)) (Arr (repeat 0 d) []).
Proof.
  intros d Hd. exists mem0. split; [apply valid_empty; auto|]. split; [auto|]. split; [auto|]. split; [intros b; exact I|auto].
Qed.
Lemma tvalid_make : forall n r x v mt, r <> [] -> n = 0 \/ vol r <> 0 -> t_nmake nomem (n :: r) (Ext x) mem0 = Ok v mt ->
  tvalid mt v (shape_of (n :: r) (repeat x (vol (n :: r)))).
Proof.
  intros n r x v mt Hr Hn E. assert (R0 : Rel (@mem0 V) mem0). { split; [auto|]. split; [auto|]. split; [intros b; exact I|auto]. }
  pose proof (sim_nmake nomem (n :: r) (Ext x) mem0 mem0 R0) as S.
  destruct (nmake nof nomem (n :: r) (Ext x) mem0) as [v1 m1|v1 m1|] eqn:E1.
  - destruct S as (mt1 & E2 & R1). rewrite E in E2. injection E2 as -> ->. exists m1. split; auto. eapply valid_make; eauto.
  - destruct S as (mt1 & E2 & R1). rewrite E in E2. discriminate.
  - exfalso. unfold nmake in E1. cbv zeta in E1. destruct (_ =? 0); [discriminate|].
    pose proof (init_range_spec nof nomem mem0 (repeat (Ext x) (n * vol r)) (repeat x (n * vol r)) (n * vol r)) as P.
    specialize (P ltac:(intros b _; reflexivity) ltac:(apply Forall2_repeat; reflexivity) ltac:(symmetry; apply repeat_length)).
    rewrite total_init in E1. rewrite (init_value_range nof nomem) in E1.
    destruct (init_from_range nof nomem (RV None 0) (n * vol r) (repeat (Ext x) (n * vol r)) mem0); try discriminate. contradiction.
Qed.
Lemma tvalid_sees : forall mt v a, tvalid mt v a -> nsees mt v a.
Proof.
  intros mt v a (m & W & R). destruct (valid_sees m v a W) as (A & B & C & D). split; auto. split; auto. split; auto.
  intros k s Hk. destruct (D k s Hk) as [L E]. split; auto. intros j x Hj. destruct (E j x Hj) as (b & Hb & Rd).
  exists b. split; auto. eapply rel_read; eauto.
Qed.
Lemma tvalid_destruct : forall mt v a, tvalid mt v a -> exists mt', t_ndestruct v mt = Ok tt mt' /\ forall b, blk mt' b = None.
Proof.
  intros mt v a (m & W & R). destruct (valid_destruct m v a W) as (m' & E & F). pose proof (sim_ndestruct v m mt R) as S.
  rewrite E in S. destruct S as (mt' & E' & (_ & _ & RB & _)). exists mt'. split; auto.
  intros b. specialize (RB b). rewrite F in RB. destruct (blk mt' b); [contradiction|auto].
Qed.

Lemma tvalid_starved : forall op mt v a, tvalid mt v a -> nlegal a op ->
  match op with NPush sd _ | NInsert _ _ sd _ | NInsertRange _ sd _ => match_sub v sd = true | _ => True end ->
  tvalid (step mt) (nstarved_v op v) (nstarved op a).
Proof.
  intros op mt v a T L MS. pose proof (tvalid_step mt v a T) as T1. pose proof (tvalid_descs _ _ _ T1) as D. pose proof (tvalid_wf _ _ _ T1) as W.
  destruct v as [r ds]. cbn [descs] in D. subst ds.
  assert (AD : forall sd, length sd = length (sub a) -> vol sd <> 0 ->
    match_sub (NVec r (init_sizes (length (slices a) :: sub a))) sd = true ->
    init_if_empty (NVec r (init_sizes (length (slices a) :: sub a))) sd = NVec r (init_sizes (length (slices a) :: sd)) /\
    adopt a sd = sd /\ tvalid (step mt) (NVec r (init_sizes (length (slices a) :: sd))) (Arr sd (slices a))).
  { intros sd Ls Vs MS'. assert (FT : fits a sd = true) by (rewrite <- (fits_match a r sd W Ls); auto).
    pose proof (fits_adopt a sd FT) as EA. split; [rewrite adopt_init, EA; auto|]. split; auto.
    destruct T1 as (m1 & (G1 & F1 & A1) & R1). destruct (adopted m1 r a sd G1 FT Ls Vs) as [W' FL].
    exists m1. split; auto. split; [|auto]. split; auto. split; [rewrite FL; apply G1|auto]. }
  assert (IN : forall sd, length sd = length (sub a) -> vol sd <> 0 ->
    match_sub (NVec r (init_sizes (length (slices a) :: sub a))) sd = true ->
    tvalid (step mt) (set_top (init_if_empty (NVec r (init_sizes (length (slices a) :: sub a))) sd) r 0) (Arr (adopt a sd) [])).
  { intros sd Ls Vs MS'. destruct (AD sd Ls Vs MS') as (-> & -> & T2).
    assert (NE : sd <> []) by (destruct sd; [destruct W as (_ & _ & W3); destruct (sub a); [congruence|discriminate]|discriminate]).
    rewrite set_init by auto. destruct (tvalid_get _ _ _ T2) as [Lc P]. cbn [nraw] in *. destruct (ptr r) as [b|] eqn:Pb.
    - destruct P as (lt & E & Ll & _).
      apply (tvalid_set (step mt) (step mt) (NVec r (init_sizes (length (slices a) :: sd))) (Arr sd (slices a)) b lt (Arr sd [])); auto; cbn; try lia.
      + split; [constructor|]. split; cbn; [congruence|auto].
      + intros [|j] y H; discriminate.
    - destruct P as [_ Z]. pose proof (flat_len _ (tvalid_wf _ _ _ T2)) as FL. rewrite Z in FL. symmetry in FL. apply empty_iff in FL; [|apply (tvalid_wf _ _ _ T2)].
      cbn [slices] in FL. rewrite FL in T2. auto. }
  inversion L; subst; cbn [nstarved_v nstarved] in *; auto.
  destruct (AD sd H H1 MS) as (-> & -> & T2). auto.
Qed.

(* every operation *)
Lemma t_nexec_spec : forall op mt v a, tvalid mt v a -> nlegal a op ->
  match t_nexec nomem half ptrs op v mt with
  | Ok (v', it) mt' => exists a', nresult op a = Some a' /\ tvalid mt' v' a' /\
      match returned op a with Some k => it = Some (k * vol (sub a')) | None => True end
  | Exc (v', _) mt' => exists a', tvalid mt' v' a' /\
      ((nresult op a = None /\ a' = a) \/ (nomem (tick mt) = true /\ a' = nstarved op a))
  | Bad => False
  end.
Proof.
  intros op mt v a T L. destruct (once_nexec nomem half ptrs op v mt) as [->|(N & -> & MS)].
  - destruct T as (m & W & R). pose proof (sim_nexec nof half ptrs op v m mt a R (proj1 W)) as S.
    pose proof (nexec_spec nof nof half op m v a (proj1 W) (proj1 (proj2 W)) L (fun _ _ => eq_refl)) as P. unfold npost in P.
    destruct (nexec nof nof half op v m) as [[v1 it] m1|[v1 it] m1|]; [| |contradiction]; destruct S as (mt1 & -> & R1).
    + destruct P as (a' & E & Af & H). exists a'. split; auto. split; auto. exists m1. split; auto. eapply valid_after; eauto.
    + destruct P as (a' & Af & H). exists a'. split; [exists m1; split; auto; eapply valid_after; eauto|]. left.
      destruct H as [H|[[[t X]|[t X]] _]]; [auto|discriminate|discriminate].
  - exists (nstarved op a). split; auto. apply tvalid_starved; auto.
Qed.

(* ---- the argument is a slice of the vector itself ---- *)
Lemma flat_nth : forall a k s j x, nwf a -> nth_error (slices a) k = Some s -> nth_error s j = Some x ->
  nth_error (flat a) (k * vol (sub a) + j) = Some x.
Proof.
  intros a k s j x (W1 & _) Hk Hj. assert (Hjl : j < length s) by (apply nth_error_Some; congruence).
  apply nth_error_split in Hk. destruct Hk as (l1 & l2 & E & <-). unfold flat. rewrite E, concat_app. simpl.
  rewrite E in W1. apply Forall_app in W1. destruct W1 as [Wl _].
  pose proof (concat_len _ _ Wl) as CL. rewrite <- CL. rewrite nth_error_app2 by lia.
  replace (length (concat l1) + j - length (concat l1)) with j by lia. rewrite nth_error_app1; auto.
Qed.
Lemma slice_nth : forall a k s j, nwf a -> nth_error (slices a) k = Some s -> j < vol (sub a) ->
  exists x, nth_error s j = Some x /\ nth_error (flat a) (k * vol (sub a) + j) = Some x.
Proof.
  intros a k s j W Hk Hj. assert (L : length s = vol (sub a)).
  { destruct W as (W1 & _). rewrite Forall_forall in W1. apply W1. eapply nth_error_In; eauto. }
  destruct (nth_error s j) as [x|] eqn:E; [|apply nth_error_None in E; lia]. exists x. split; auto. eapply flat_nth; eauto.
Qed.
Lemma own_eq : forall r a k b, nwf a -> ptr r = Some b ->
  own (NVec r (init_sizes (length (slices a) :: sub a))) k = map (@Ref V b) (seq (k * vol (sub a)) (vol (sub a))).
Proof. intros r a k b (_ & _ & W3) P. unfold own. cbn [nraw]. rewrite P, esize_init by auto. auto. Qed.
Lemma contiguous_seq : forall n b i, contiguous (V := V) b i (map (Ref b) (seq i n)) = true.
Proof. induction n; intros b i; cbn [seq map contiguous]; auto. rewrite !Nat.eqb_refl, IHn. auto. Qed.
Lemma copy_own : forall b first n dst mt, t_copy true b dst (map (Ref b) (seq first n)) mt = memcpy b first n b dst mt.
Proof.
  intros b first [|n] dst mt; cbn [seq map t_copy t_loop]; [unfold memcpy, memmove; cbn; rewrite andb_false_r; auto|].
  change (Ref b first :: map (Ref b) (seq (S first) n)) with (map (@Ref V b) (seq first (S n))).
  rewrite contiguous_seq. cbn [andb]. rewrite map_length, seq_length. auto.
Qed.
Lemma memcpy_apart : forall b first n dst mt lt, blk mt b = Some lt -> first + n <= length lt -> dst + n <= length lt ->
  first + n <= dst \/ dst + n <= first ->
  exists mt' lt', memcpy b first n b dst mt = Ok (dst + n) mt' /\ blk mt' b = Some lt' /\ length lt' = length lt /\
    (forall j, nth_error lt' j = if (dst <=? j) && (j <? dst + n) then nth_error lt (first + (j - dst)) else nth_error lt j) /\
    (forall b', b' <> b -> blk mt' b' = blk mt b') /\ next mt' = next mt.
Proof.
  intros b first n dst mt lt E L1 L2 DJ. unfold memcpy. rewrite Nat.eqb_refl. cbn [andb].
  replace ((first <? dst + n) && (dst <? first + n) && negb (n =? 0)) with false; [apply memmove_nth; auto|].
  destruct (Nat.ltb_spec first (dst + n)), (Nat.ltb_spec dst (first + n)); cbn [andb]; auto. lia.
Qed.
Lemma match_own : forall r a, nwf a ->
  match_sub (NVec r (init_sizes (length (slices a) :: sub a))) (sub a) = true.
Proof.
  intros r a W. rewrite fits_match by auto. unfold fits, eq_dims. destruct (slices a); auto.
  destruct (list_eq_dec Nat.eq_dec (sub a) (sub a)); congruence.
Qed.
Lemma init_own : forall r a, nwf a ->
  init_if_empty (NVec r (init_sizes (length (slices a) :: sub a))) (sub a) = NVec r (init_sizes (length (slices a) :: sub a)).
Proof.
  intros r a W. unfold init_if_empty. rewrite total_init. destruct (Nat.eqb_spec (length (slices a) * vol (sub a)) 0) as [Z|]; auto.
  apply empty_iff in Z; auto. rewrite Z. auto.
Qed.
Lemma ext_own : forall r a, tl (extents (NVec r (init_sizes (length (slices a) :: sub a)))) = sub (V := V) a.
Proof. intros. unfold extents. cbn [descs]. rewrite init_sizes_fst. auto. Qed.
Lemma nwf_push : forall a s, nwf a -> In s (slices a) -> nwf (Arr (sub a) (slices a ++ [s])).
Proof.
  intros a s (W1 & W2 & W3) I. split; [|split]; cbn; auto.
  - apply Forall_app. split; auto. constructor; auto. rewrite Forall_forall in W1. auto.
  - intros _. apply W2. intros Z. rewrite Z in I. contradiction.
Qed.
Lemma nwf_insert : forall a p n s, nwf a -> In s (slices a) -> nwf (Arr (sub a) (insert_at p (repeat s n) (slices a))).
Proof.
  intros a p n s (W1 & W2 & W3) I. split; [|split]; cbn; auto.
  - apply Forall_insert; auto. apply Forall_forall. intros x Hx. apply repeat_spec in Hx. subst. rewrite Forall_forall in W1. auto.
  - intros _. apply W2. intros Z. rewrite Z in I. contradiction.
Qed.

Lemma push_own : forall mt v a k s, tvalid mt v a -> nth_error (slices a) k = Some s ->
  length (flat a) + vol (sub a) <= cap (nraw v) ->
  exists v' mt', t_npush_own nomem half v k mt = Ok v' mt' /\ tvalid mt' v' (Arr (sub a) (slices a ++ [s])).
Proof.
  intros mt v a k s T Hk C. pose proof (tvalid_descs _ _ _ T) as D. pose proof (tvalid_wf _ _ _ T) as W. destruct v as [r ds]. cbn [descs] in D. subst ds.
  assert (Lk : k < length (slices a)) by (apply nth_error_Some; congruence).
  pose proof (flat_len a W) as FL. assert (Lv : 0 < vol (sub a)).
  { destruct W as (_ & W2 & _). specialize (W2 ltac:(intros Z; rewrite Z in Lk; cbn in Lk; lia)). lia. }
  assert (LK : k * vol (sub a) + vol (sub a) <= length (flat a)).
  { rewrite FL. replace (k * vol (sub a) + vol (sub a)) with (S k * vol (sub a)) by lia. apply Nat.mul_le_mono_r. lia. }
  destruct (tvalid_get _ _ _ T) as [Lc P]. cbn [nraw] in *. destruct (ptr r) as [b|] eqn:Pb; [|destruct P as [_ Z]; rewrite Z in LK; cbn in LK; lia].
  destruct P as (lt & E & Ll & CV). unfold t_npush_own. rewrite ext_own. unfold t_npush. rewrite match_own by auto. cbn [negb]. cbv zeta.
  rewrite init_own by auto. rewrite (own_eq r a k b W Pb). cbn [nraw]. rewrite total_init, <- FL, product_vol.
  unfold t_prepare_push_back. destruct (Nat.ltb_spec (cap r) (length (flat a) + vol (sub a))); [lia|]. rewrite Pb, copy_own.
  destruct (memcpy_apart b (k * vol (sub a)) (vol (sub a)) (length (flat a)) mt lt E) as (m1 & l1 & F1 & E1 & L1 & P1 & O1 & N1); [lia|lia|lia|].
  rewrite F1. do 2 eexists. split; [reflexivity|]. rewrite top_init, set_init by apply W.
  assert (LS : length (slices a) + 1 = length (slices (Arr (sub a) (slices a ++ [s])))) by (cbn [slices]; rewrite app_length; auto). rewrite LS.
  apply (tvalid_set mt m1 (NVec r (init_sizes (length (slices a) :: sub a))) a b l1 (Arr (sub a) (slices a ++ [s]))); auto.
  - cbn [nraw]. lia.
  - apply nwf_push; auto. eapply nth_error_In; eauto.
  - rewrite flat_len by (apply nwf_push; auto; eapply nth_error_In; eauto). cbn [slices sub nraw]. rewrite app_length. cbn. lia.
  - intros j y Hy. unfold flat in Hy. cbn [slices] in Hy. rewrite concat_app in Hy. cbn [concat] in Hy. rewrite app_nil_r in Hy.
    change (concat (slices a)) with (flat a) in Hy. rewrite P1. destruct (Nat.lt_ge_cases j (length (flat a))) as [J|J].
    + rewrite nth_error_app1 in Hy by auto. destruct (Nat.leb_spec (length (flat a)) j); [lia|]. cbn [andb]. auto.
    + rewrite nth_error_app2 in Hy by auto. assert (j - length (flat a) < length s) by (apply nth_error_Some; congruence).
      assert (Ls : length s = vol (sub a)). { destruct W as (W1 & _). rewrite Forall_forall in W1. apply W1. eapply nth_error_In; eauto. }
      destruct (Nat.leb_spec (length (flat a)) j); [|lia]. destruct (Nat.ltb_spec j (length (flat a) + vol (sub a))); [|lia]. cbn [andb].
      apply CV. eapply flat_nth; eauto.
Qed.
(* the right part of the vector moves by n, its old cells keep their values *)
Lemma nprepare_in_place : forall r o off count es n (mt : mem) b lt, n = count * es -> ptr r = Some b -> blk mt b = Some lt -> length lt = cap r ->
  o + n <= cap r -> off <= o ->
  exists mt' lt', t_prepare_insert nomem half r o off count es mt = Ok (r, 0) mt' /\ blk mt' b = Some lt' /\ length lt' = length lt /\
    (forall j, nth_error lt' j = if (off + n <=? j) && (j <? o + n) then nth_error lt (j - n) else nth_error lt j) /\
    (forall b', b' <> b -> blk mt' b' = blk mt b') /\ next mt' = next mt.
Proof.
  intros r o off count es n mt b lt Hn P E L C O. unfold t_prepare_insert. cbv zeta. rewrite <- Hn. clear Hn.
  destruct (Nat.ltb_spec (cap r) (o + n)); [lia|]. rewrite P.
  destruct (Nat.leb_spec (o - off) n).
  - unfold t_transfer. destruct (Nat.ltb_spec o off); [lia|]. unfold memcpy.
    destruct (memmove_nth b off (o - off) (off + n) mt lt E) as (mt' & lt' & F & E' & L' & P' & O' & N'); [lia|lia|].
    replace ((b =? b) && (off <? off + n + (o - off)) && (off + n <? off + (o - off)) && negb (o - off =? 0)) with false.
    2:{ destruct (Nat.ltb_spec (off + n) (off + (o - off))); [lia|]. rewrite !andb_false_r. auto. }
    rewrite F. cbn [andthen t_destroy]. exists mt', lt'. split; auto. split; auto. split; auto. split; [|split; auto].
    intros j. rewrite P'. destruct (Nat.leb_spec (off + n) j), (Nat.ltb_spec j (off + n + (o - off))), (Nat.ltb_spec j (o + n));
      cbn [andb]; auto; try lia. f_equal; lia.
  - replace (o + n - o) with n by lia. replace (o + n - n) with o by lia.
    unfold t_transfer. destruct (Nat.ltb_spec o (o - n)); [lia|]. replace (o - (o - n)) with n by lia. unfold memcpy.
    destruct (memmove_nth b (o - n) n o mt lt E) as (m1 & l1 & F1 & E1 & L1 & P1 & O1 & N1); [lia|lia|].
    replace ((b =? b) && (o - n <? o + n) && (o <? o - n + n) && negb (n =? 0)) with false.
    2:{ destruct (Nat.ltb_spec o (o - n + n)); [lia|]. rewrite andb_false_r. auto. }
    rewrite F1. unfold t_transfer_right. destruct (Nat.ltb_spec (o - n) off); [lia|].
    destruct (Nat.ltb_spec o (o - n - off)); [lia|]. cbn [orb].
    destruct (memmove_nth b off (o - n - off) (o - (o - n - off)) m1 l1 E1) as (m2 & l2 & F2 & E2 & L2 & P2 & O2 & N2); [lia|lia|].
    rewrite F2. cbn [andthen t_destroy]. exists m2, l2. split; auto. split; auto. split; [lia|]. split; [|split; [|lia]].
    + intros j. rewrite P2, !P1.
      destruct (Nat.leb_spec (o - (o - n - off)) j), (Nat.ltb_spec j (o - (o - n - off) + (o - n - off))), (Nat.leb_spec (off + n) j), (Nat.ltb_spec j (o + n));
        cbn [andb]; try lia;
        repeat match goal with |- context [?a <=? ?c] => destruct (Nat.leb_spec a c) end;
        repeat match goal with |- context [?a <? ?c] => destruct (Nat.ltb_spec a c) end; cbn [andb]; auto; try lia; f_equal; lia.
    + intros b' Hb. rewrite O2, O1; auto.
Qed.
(* count copies of a slice that lies outside the gap *)
Lemma slices_own : forall n b src es dst i mt lt, blk mt b = Some lt -> src + es <= length lt -> dst + n * es <= length lt ->
  src + es <= dst \/ dst + n * es <= src ->
  exists x mt' lt', t_copy_slices true n b dst (map (Ref b) (seq src es)) i mt = Ok x mt' /\ blk mt' b = Some lt' /\ length lt' = length lt /\
    (forall q j, q < n -> j < es -> nth_error lt' (dst + q * es + j) = nth_error lt (src + j)) /\
    (forall j, j < dst \/ dst + n * es <= j -> nth_error lt' j = nth_error lt j) /\
    (forall b', b' <> b -> blk mt' b' = blk mt b') /\ next mt' = next mt.
Proof.
  induction n as [|n IH]; intros b src es dst i mt lt E L1 L2 DJ; cbn [t_copy_slices].
  - do 3 eexists. split; [reflexivity|]. split; eauto. split; auto. split; [intros; lia|]. split; auto.
  - rewrite copy_own. cbn [Nat.mul] in *.
    destruct (memcpy_apart b src es dst mt lt E) as (m1 & l1 & F1 & E1 & LL1 & P1 & O1 & N1); [lia|lia|lia|]. rewrite F1.
    destruct (IH b src es (dst + es) (S i) m1 l1 E1) as (x & m2 & l2 & F2 & E2 & LL2 & P2 & Q2 & O2 & N2); [lia|lia|lia|].
    exists x, m2, l2. split; auto. split; auto. split; [lia|]. split; [|split; [|split]].
    + intros q j Hq Hj. destruct q as [|q].
      * rewrite Q2 by (left; lia). rewrite P1. destruct (Nat.leb_spec dst (dst + 0 * es + j)); [|lia].
        destruct (Nat.ltb_spec (dst + 0 * es + j) (dst + es)); [|lia]. cbn [andb]. f_equal; lia.
      * replace (dst + S q * es + j) with (dst + es + q * es + j) by (cbn; lia). rewrite P2 by lia. rewrite P1.
        destruct (Nat.leb_spec dst (src + j)), (Nat.ltb_spec (src + j) (dst + es)); cbn [andb]; auto. lia.
    + intros j Hj. rewrite Q2 by lia. rewrite P1. destruct (Nat.leb_spec dst j), (Nat.ltb_spec j (dst + es)); cbn [andb]; auto. lia.
    + intros b' Hb. rewrite O2, O1; auto.
    + congruence.
Qed.
Lemma nth_concat_rep : forall (s : list V) n j y, nth_error (concat (repeat s n)) j = Some y ->
  exists q i, q < n /\ i < length s /\ j = q * length s + i /\ nth_error s i = Some y.
Proof.
  induction n as [|n IH]; intros j y H; cbn [repeat concat] in H; [destruct j; discriminate|].
  destruct (Nat.lt_ge_cases j (length s)) as [J|J].
  - rewrite nth_error_app1 in H by auto. exists 0, j. repeat split; auto; lia.
  - rewrite nth_error_app2 in H by auto. destruct (IH _ _ H) as (q & i & A & B & C & D). exists (S q), i. repeat split; auto; try lia.
Qed.

Lemma nth_first : forall (l : list V) n i, i < n -> nth_error (firstn n l) i = nth_error l i.
Proof. induction l; intros [|n] [|i] H; simpl; auto; try lia. apply IHl; lia. Qed.
Lemma nth_skip : forall (l : list V) n i, nth_error (skipn n l) i = nth_error l (n + i).
Proof. induction l; intros [|n] i; simpl; auto. destruct i; auto. Qed.

Lemma insert_own : forall mt v a p n k s, tvalid mt v a -> p <= length (slices a) -> k < length (slices a) -> 0 < n ->
  ninserted a p n k = Some s -> length (flat a) + n * vol (sub a) <= cap (nraw v) ->
  exists v' mt', t_ninsert_own nomem half v p n k mt = Ok (v', p * vol (sub a)) mt' /\
    tvalid mt' v' (Arr (sub a) (insert_at p (repeat s n) (slices a))).
Proof.
  intros mt v a p n k s T Lp Lk Ln Hs C. pose proof (tvalid_descs _ _ _ T) as D. pose proof (tvalid_wf _ _ _ T) as W. destruct v as [r ds]. cbn [descs] in D. subst ds.
  pose proof (flat_len a W) as FL. assert (Lv : 0 < vol (sub a)).
  { destruct W as (_ & W2 & _). specialize (W2 ltac:(intros Z; rewrite Z in Lk; cbn in Lk; lia)). lia. }
  set (es := vol (sub a)) in *. set (N := length (slices a)) in *.
  assert (MUL : forall x y, x <= y -> x * es <= y * es) by (intros; apply Nat.mul_le_mono_r; auto).
  assert (LK : S k * es <= N * es) by (apply MUL; lia). cbn [Nat.mul] in LK.
  assert (LP : p * es <= N * es) by (apply MUL; lia).
  destruct (tvalid_get _ _ _ T) as [Lc P]. cbn [nraw] in *. destruct (ptr r) as [b|] eqn:Pb; [|destruct P as [_ Z]; rewrite Z in FL; cbn in FL; lia].
  destruct P as (lt & E & Ll & CV).
  assert (In_s : In s (slices a)).
  { unfold ninserted in Hs. destruct (k <? p); [eapply nth_error_In; eauto|]. destruct (k <? p + n); [discriminate|]. eapply nth_error_In; eauto. }
  assert (Ls : length s = es). { destruct W as (W1 & _). rewrite Forall_forall in W1. apply W1; auto. }
  unfold t_ninsert_own. unfold N. rewrite ext_own. unfold t_ninsert. rewrite top_init. fold N.
  destruct (Nat.ltb_spec N p); [lia|]. destruct (Nat.eqb_spec n 0); [lia|]. unfold N. rewrite match_own by auto. cbn [negb]. cbv zeta.
  rewrite init_own by auto. rewrite product_vol. fold es. destruct (Nat.eqb_spec es 0); [lia|].
  rewrite esize_init by apply W. fold es. unfold t_nprepare_insert. rewrite total_init. cbn [nraw descs]. fold es N.
  destruct (nprepare_in_place r (N * es) (p * es) n es (n * es) mt b lt eq_refl Pb E Ll) as (m1 & l1 & F1 & E1 & L1 & P1 & O1 & N1); [lia|lia|].
  rewrite F1. cbn [nraw]. rewrite Pb. unfold N. rewrite (own_eq r a k b W Pb). fold es N.
  assert (DJ : k * es + es <= p * es \/ p * es + n * es <= k * es).
  { unfold ninserted in Hs. destruct (Nat.ltb_spec k p) as [A|A].
    - left. assert (S k * es <= p * es) by (apply MUL; lia). cbn in *. lia.
    - right. destruct (Nat.ltb_spec k (p + n)); [discriminate|]. assert ((p + n) * es <= k * es) by (apply MUL; lia). lia. }
  destruct (slices_own n b (k * es) es (p * es) 0 m1 l1 E1) as (x & m2 & l2 & F2 & E2 & L2 & P2 & Q2 & O2 & N2); [lia|lia|auto|].
  rewrite F2. do 2 eexists. split; [reflexivity|]. rewrite top_init, set_init by apply W.
  set (a' := Arr (sub a) (insert_at p (repeat s n) (slices a))).
  assert (W' : nwf a') by (apply nwf_insert; auto).
  assert (LS : length (slices a) + n = length (slices a')).
  { unfold a'. cbn [slices]. unfold insert_at. rewrite !app_length, firstn_length, skipn_length, repeat_length. fold N. lia. }
  unfold N. rewrite LS. change (sub a) with (sub a').
  apply (tvalid_set mt m2 (NVec r (init_sizes (length (slices a) :: sub a))) a b l2 a'); auto.
  - cbn [nraw]. lia.
  - rewrite flat_len by auto. cbn [nraw]. rewrite <- LS. fold N. change (sub a') with (sub a). fold es. lia.
  - intros j y Hy. unfold flat in Hy. cbn [a' slices] in Hy. rewrite (insert_concat es p (slices a)) in Hy by apply W.
    change (concat (slices a)) with (flat a) in Hy. unfold insert_at in Hy.
    assert (LF : length (firstn (p * es) (flat a)) = p * es) by (rewrite firstn_length; lia).
    assert (LR : length (concat (repeat s n)) = n * es).
    { rewrite (concat_len es) by (apply Forall_forall; intros z Hz; apply repeat_spec in Hz; subst; auto). rewrite repeat_length. auto. }
    destruct (Nat.lt_ge_cases j (p * es)) as [J|J].
    + rewrite nth_error_app1 in Hy by lia. rewrite Q2 by auto. rewrite P1. destruct (Nat.leb_spec (p * es + n * es) j); [lia|]. cbn [andb].
      apply CV. rewrite <- Hy, nth_first; auto.
    + rewrite nth_error_app2 in Hy by lia. rewrite LF in Hy. destruct (Nat.lt_ge_cases j (p * es + n * es)) as [J2|J2].
      * rewrite nth_error_app1 in Hy by lia. destruct (nth_concat_rep s n _ _ Hy) as (q & i & Hq & Hi & Ej & Hz). rewrite Ls in *.
        replace j with (p * es + q * es + i) by lia. rewrite P2 by auto. rewrite P1.
        unfold ninserted in Hs. destruct (Nat.ltb_spec k p).
        -- assert (S k * es <= p * es) by (apply MUL; lia). cbn [Nat.mul] in *.
           destruct (Nat.leb_spec (p * es + n * es) (k * es + i)); [lia|]. cbn [andb]. apply CV. eapply flat_nth; eauto.
        -- destruct (Nat.ltb_spec k (p + n)); [discriminate|]. destruct DJ as [DJ|DJ].
           ++ assert (p * es <= k * es) by (apply MUL; lia). lia.
           ++ destruct (Nat.leb_spec (p * es + n * es) (k * es + i)); [|lia]. destruct (Nat.ltb_spec (k * es + i) (N * es + n * es)); [|lia].
              cbn [andb]. replace (k * es + i - n * es) with ((k - n) * es + i) by (rewrite Nat.mul_sub_distr_r; lia).
              apply CV. eapply flat_nth; eauto.
      * rewrite nth_error_app2 in Hy by lia. rewrite LR in Hy.
        assert (Hy' : nth_error (flat a) (j - n * es) = Some y).
        { rewrite <- Hy, nth_skip. f_equal. lia. }
        assert (j - n * es < length (flat a)) by (apply nth_error_Some; congruence).
        rewrite Q2 by auto. rewrite P1. destruct (Nat.leb_spec (p * es + n * es) j); [|lia]. destruct (Nat.ltb_spec j (N * es + n * es)); [|lia].
        cbn [andb]. auto.
  - intros b' Hb. rewrite O2, O1; auto.
  - congruence.
Qed.

(* ---- what is undefined ---- *)
Lemma memcpy_freed : forall b first n bd dst mt, 0 < n -> blk mt b = None -> memcpy b first n bd dst mt = Bad.
Proof.
  intros b first n bd dst mt L E. unfold memcpy, memmove. destruct (_ && _); auto. destruct (Nat.eqb_spec n 0); [lia|]. rewrite E. auto.
Qed.
Lemma copy_freed : forall b first n bd dst mt, 0 < n -> blk mt b = None -> t_copy true bd dst (map (Ref b) (seq first n)) mt = Bad.
Proof.
  intros b first [|n] bd dst mt L E; [lia|]. cbn [seq map t_copy].
  change (Ref b first :: map (Ref b) (seq (S first) n)) with (map (@Ref V b) (seq first (S n))).
  rewrite contiguous_seq. cbn [andb]. rewrite map_length, seq_length. apply memcpy_freed; auto.
Qed.
Lemma slices_freed : forall b first n bd dst count i mt, 0 < n -> 0 < count -> blk mt b = None ->
  t_copy_slices true count bd dst (map (Ref b) (seq first n)) i mt = Bad.
Proof. intros b first n bd dst [|count] i mt L L2 E; [lia|]. cbn [t_copy_slices]. rewrite copy_freed; auto. Qed.
Lemma push_own_freed : forall mt v a k, tvalid mt v a -> k < length (slices a) ->
  cap (nraw v) < length (flat a) + vol (sub a) -> nomem (tick mt) = false -> t_npush_own nomem half v k mt = Bad.
Proof.
  intros mt v a k T Lk C NM. pose proof (tvalid_descs _ _ _ T) as D. pose proof (tvalid_wf _ _ _ T) as W. destruct v as [r ds]. cbn [descs] in D. subst ds.
  pose proof (flat_len a W) as FL. assert (Lv : 0 < vol (sub a)).
  { destruct W as (_ & W2 & _). specialize (W2 ltac:(intros Z; rewrite Z in Lk; cbn in Lk; lia)). lia. }
  destruct (tvalid_get _ _ _ T) as [Lc P]. cbn [nraw] in *. destruct (ptr r) as [b|] eqn:Pb.
  2:{ destruct P as [_ Z]. rewrite Z in FL. cbn in FL. symmetry in FL. apply Nat.eq_mul_0 in FL. lia. }
  clear P. unfold t_npush_own. rewrite ext_own. unfold t_npush. rewrite match_own by auto. cbn [negb]. cbv zeta.
  rewrite init_own by auto. rewrite (own_eq r a k b W Pb). cbn [nraw]. rewrite total_init, <- FL, product_vol.
  unfold t_prepare_push_back. destruct (Nat.ltb_spec (cap r) (length (flat a) + vol (sub a))); [|lia].
  unfold t_relocate, allocate. rewrite NM, Pb. unfold t_transfer. destruct (_ <? 0); [auto|].
  match goal with |- context [memcpy ?x ?f ?q ?y ?d ?z] => pose proof (memcpy_noexc x f q y d z); destruct (memcpy x f q y d z) as [d1 m2|d1 m2|] end; [|contradiction|auto].
  destruct (t_drop_old r (length (flat a)) m2) as [u m4|u m4|] eqn:DO.
  - cbn [andthen ptr]. rewrite copy_freed; auto. eapply drop_frees; eauto.
  - unfold t_drop_old in DO. rewrite Pb in DO. cbn [andthen t_destroy] in DO. unfold t_deallocate in DO. destruct (blk m2 b); [|discriminate].
    destruct (_ =? _); discriminate.
  - auto.
Qed.
Lemma insert_own_freed : forall mt v a p n k, tvalid mt v a -> p <= length (slices a) -> k < length (slices a) -> 0 < n ->
  cap (nraw v) < length (flat a) + n * vol (sub a) -> nomem (tick mt) = false -> t_ninsert_own nomem half v p n k mt = Bad.
Proof.
  intros mt v a p n k T Lp Lk Ln C NM. pose proof (tvalid_descs _ _ _ T) as D. pose proof (tvalid_wf _ _ _ T) as W. destruct v as [r ds]. cbn [descs] in D. subst ds.
  pose proof (flat_len a W) as FL. assert (Lv : 0 < vol (sub a)).
  { destruct W as (_ & W2 & _). specialize (W2 ltac:(intros Z; rewrite Z in Lk; cbn in Lk; lia)). lia. }
  destruct (tvalid_get _ _ _ T) as [Lc P]. cbn [nraw] in *. destruct (ptr r) as [b|] eqn:Pb.
  2:{ destruct P as [_ Z]. rewrite Z in FL. cbn in FL. symmetry in FL. apply Nat.eq_mul_0 in FL. lia. }
  clear P. unfold t_ninsert_own. rewrite ext_own. unfold t_ninsert. rewrite top_init.
  destruct (Nat.ltb_spec (length (slices a)) p); [lia|]. destruct (Nat.eqb_spec n 0); [lia|]. rewrite match_own by auto. cbn [negb]. cbv zeta.
  rewrite init_own by auto. rewrite product_vol. destruct (Nat.eqb_spec (vol (sub a)) 0); [lia|].
  rewrite esize_init by apply W. unfold t_nprepare_insert. rewrite total_init, <- FL. cbn [nraw descs]. rewrite (own_eq r a k b W Pb).
  unfold t_prepare_insert. cbv zeta. destruct (Nat.ltb_spec (cap r) (length (flat a) + n * vol (sub a))); [|lia].
  unfold allocate. rewrite NM, Pb. unfold t_transfer. destruct (_ <? 0); [auto|].
  match goal with |- context [memcpy ?x ?f ?q ?y ?d ?z] => pose proof (memcpy_noexc x f q y d z); destruct (memcpy x f q y d z) as [d1 m2|d1 m2|] end; [|contradiction|auto].
  destruct (_ <? _); [auto|].
  match goal with |- context [memcpy ?x ?f ?q ?y ?d ?z] => pose proof (memcpy_noexc x f q y d z); destruct (memcpy x f q y d z) as [d2 m3|d2 m3|] end; [|contradiction|auto].
  destruct (t_drop_old r (length (flat a)) m3) as [u m4|u m4|] eqn:DO.
  - cbn [andthen nraw ptr]. rewrite slices_freed; auto. eapply drop_frees; eauto.
  - unfold t_drop_old in DO. rewrite Pb in DO. cbn [andthen t_destroy] in DO. unfold t_deallocate in DO. destruct (blk m3 b); [|discriminate].
    destruct (_ =? _); discriminate.
  - auto.
Qed.
(* a copy of the slice is made in its own place *)
Lemma slices_overlap : forall n q b dst es i mt, 0 < es -> q < n ->
  t_copy_slices true n b dst (map (Ref b) (seq (dst + q * es) es)) i mt = Bad.
Proof.
  induction n as [|n IH]; intros q b dst es i mt Le Lq; [lia|]. cbn [t_copy_slices]. rewrite copy_own. destruct q as [|q].
  - unfold memcpy. cbn [Nat.mul]. rewrite Nat.add_0_r, Nat.eqb_refl. cbn [andb].
    destruct (Nat.ltb_spec dst (dst + es)); [|lia]. destruct (Nat.eqb_spec es 0); [lia|]. auto.
  - pose proof (memcpy_noexc b (dst + S q * es) es b dst mt) as NX.
    destruct (memcpy b (dst + S q * es) es b dst mt) as [d m1|d m1|] eqn:E; [|contradiction|auto].
    assert (ED : d = dst + es).
    { unfold memcpy, memmove in E. destruct (_ && _) in E; [discriminate|]. destruct (Nat.eqb_spec es 0); [lia|].
      destruct (blk mt b); [|discriminate]. destruct (_ && _) in E; [|discriminate]. injection E as <- _. auto. }
    subst d. replace (dst + S q * es) with (dst + es + q * es) by (cbn; lia). apply IH; lia.
Qed.
Lemma insert_own_gap : forall mt v a p n k, tvalid mt v a -> p <= k -> k < p + n -> k < length (slices a) ->
  length (flat a) + n * vol (sub a) <= cap (nraw v) -> t_ninsert_own nomem half v p n k mt = Bad.
Proof.
  intros mt v a p n k T Lp Lg Lk C. pose proof (tvalid_descs _ _ _ T) as D. pose proof (tvalid_wf _ _ _ T) as W. destruct v as [r ds]. cbn [descs] in D. subst ds.
  pose proof (flat_len a W) as FL. assert (Lv : 0 < vol (sub a)).
  { destruct W as (_ & W2 & _). specialize (W2 ltac:(intros Z; rewrite Z in Lk; cbn in Lk; lia)). lia. }
  destruct (tvalid_get _ _ _ T) as [Lc P]. cbn [nraw] in *. destruct (ptr r) as [b|] eqn:Pb.
  2:{ destruct P as [_ Z]. rewrite Z in FL. cbn in FL. symmetry in FL. apply Nat.eq_mul_0 in FL. lia. }
  destruct P as (lt & E & Ll & CV).
  unfold t_ninsert_own. rewrite ext_own. unfold t_ninsert. rewrite top_init.
  destruct (Nat.ltb_spec (length (slices a)) p); [lia|]. destruct (Nat.eqb_spec n 0); [lia|]. rewrite match_own by auto. cbn [negb]. cbv zeta.
  rewrite init_own by auto. rewrite product_vol. destruct (Nat.eqb_spec (vol (sub a)) 0); [lia|].
  rewrite esize_init by apply W. unfold t_nprepare_insert. rewrite total_init, <- FL. cbn [nraw descs]. rewrite (own_eq r a k b W Pb).
  assert (LP : p * vol (sub a) <= length (flat a)) by (rewrite FL; apply Nat.mul_le_mono_r; lia).
  destruct (nprepare_in_place r (length (flat a)) (p * vol (sub a)) n (vol (sub a)) _ mt b lt eq_refl Pb E Ll C LP) as (m1 & l1 & F1 & _).
  rewrite F1. cbn [nraw]. rewrite Pb. replace (k * vol (sub a)) with (p * vol (sub a) + (k - p) * vol (sub a)).
  2:{ rewrite <- Nat.mul_add_distr_r. f_equal. lia. }
  rewrite slices_overlap by lia. auto.
Qed.
End Steps.
