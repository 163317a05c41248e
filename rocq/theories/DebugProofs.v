(* The assertions of a debug build: a function that does nothing undefined passes
   those about ranges; the others are arithmetic. *)
From Coq Require Import List Bool Arith Lia.
From Verif Require Import VecModel VecWorld VecSpec VecProofs VecRaw VecOps VecRun DebugModel DebugSpec.
Import ListNotations.

Set Default Proof Using "Type".
Section Proofs.
Context {V : Type}.
Variable fails nomem : nat -> bool.
Variable half : nat.
Notation mem := (@mem V).
Notation src := (@src V).
Notation out := (@out V).

(* a block the function may allocate next is none of the vector's *)
Definition owned (r : rv) (m : mem) : Prop := forall b, ptr r = Some b -> b < next m.

Lemma req_le : forall {A} i j (x : dout A), i <= j -> requires (V:=V) (i <=? j) x = x.
Proof. intros. unfold requires. destruct (Nat.leb_spec i j); auto; lia. Qed.
Lemma req_lt : forall {A} i j (x : dout A), i < j -> requires (V:=V) (i <? j) x = x.
Proof. intros. unfold requires. destruct (Nat.ltb_spec i j); auto; lia. Qed.
Lemma req_ne : forall {A} i (x : dout A), i <> 0 -> requires (V:=V) (negb (i =? 0)) x = x.
Proof. intros. unfold requires. destruct (Nat.eqb_spec i 0); auto; lia. Qed.

Lemma ddestroy_run : forall b i j (m : mem), destroy b i j m <> Bad -> ddestroy b i j m = Run (destroy b i j m).
Proof.
  intros. unfold ddestroy. apply req_le. unfold destroy in H. destruct (Nat.ltb_spec j i); [congruence|auto].
Qed.
Lemma dfill_run : forall b i j s (m : mem), fill fails b i j s m <> Bad -> dfill fails b i j s m = Run (fill fails b i j s m).
Proof.
  intros. unfold dfill. apply req_le. unfold fill in H. destruct (Nat.ltb_spec j i); [congruence|auto].
Qed.
Lemma dtransfer_run : forall bs i j bd d (m : mem), transfer fails bs i j bd d m <> Bad ->
  bs <> bd \/ j <= d -> dtransfer fails bs i j bd d m = Run (transfer fails bs i j bd d m).
Proof.
  intros bs i j bd d m H S. unfold dtransfer. rewrite req_le.
  - unfold requires. destruct (Nat.eqb_spec bs bd); cbn [negb orb]; auto.
    destruct (Nat.leb_spec j d); cbn [orb]; auto. lia.
  - unfold transfer in H. destruct (Nat.ltb_spec j i); [congruence|auto].
Qed.
Lemma dleft_run : forall b i j d (m : mem), transfer_left fails b i j d m <> Bad -> d < i ->
  dtransfer_left fails b i j d m = Run (transfer_left fails b i j d m).
Proof.
  intros. unfold dtransfer_left. rewrite req_le, req_lt; auto.
  unfold transfer_left in H. destruct (Nat.ltb_spec j i); [congruence|auto].
Qed.
Lemma dright_run : forall b i j d (m : mem), transfer_right fails b i j d m <> Bad -> i < pred d ->
  dtransfer_right fails b i j d m = Run (transfer_right fails b i j d m).
Proof.
  intros. unfold dtransfer_right. rewrite req_le, req_lt; auto.
  unfold transfer_right in H. destruct (Nat.ltb_spec j i); [congruence|auto].
Qed.
Lemma dallocate_run : forall n (m : mem), 0 < n -> dallocate nomem n m = Run (allocate nomem n m).
Proof. intros. unfold dallocate. apply req_lt; auto. Qed.
Lemma dincrease_run : forall {A} o n (f : nat -> dout A), o < n -> dincrease (V:=V) half o n f = f (increase half o n).
Proof. intros. unfold dincrease. apply req_lt; auto. Qed.

Lemma dthen_run : forall {A B} (x : dout A) (y : out A) (f : mem -> dout B) g,
  (y <> Bad -> x = Run y) -> andthen y g <> Bad -> (forall a m, y = Ok a m -> g m <> Bad -> f m = Run (g m)) ->
  dthen x f = Run (andthen y g).
Proof.
  intros A B x y f g E H K. destruct y as [a m|a m|]; cbn [andthen] in *; try congruence.
  rewrite E by discriminate. cbn. eapply K; eauto.
Qed.
Lemma drethrow_run : forall {A B} (x : dout A) (y : out A) (b : B),
  (y <> Bad -> x = Run y) -> rethrow y b <> Bad -> drethrow x b = Run (rethrow y b).
Proof.
  intros A B x y b E H. destruct y; cbn [rethrow] in *; try congruence. rewrite E by discriminate. reflexivity.
Qed.
Lemma ddrop_old_run : forall r n (m : mem), drop_old r n m <> Bad -> ddrop_old r n m = Run (drop_old r n m).
Proof.
  intros r n m H. unfold ddrop_old, drop_old in *. destruct (ptr r); auto.
  apply dthen_run; auto using ddestroy_run.
Qed.
Lemma ddrop_new_run : forall {A} nb d c (a : A) (m : mem), drop_new nb d c a m <> Bad ->
  ddrop_new nb d c a m = Run (drop_new nb d c a m).
Proof.
  intros A nb d c a m H. unfold ddrop_new, drop_new in *. apply drethrow_run; auto.
  intros. apply dthen_run; auto using ddestroy_run.
Qed.
Lemma allocate_new : forall n (m : mem) nb m1, allocate nomem n m = Ok nb m1 -> nb = next m.
Proof. unfold allocate. intros n m nb m1 H. destruct (nomem (tick m)); [discriminate|congruence]. Qed.

(* the release function at the head of the term, then its debug twin *)
Ltac head x := match goal with H : context [x] |- _ => let E := fresh "E" in destruct x as [?a ?m|?a ?m|] eqn:E; [ | |congruence] end.

Lemma dinit_value_run : forall r n s (m : mem), init_from_value fails nomem r n s m <> Bad -> n <> 0 ->
  dinit_from_value fails nomem r n s m = Run (init_from_value fails nomem r n s m).
Proof.
  intros r n s m H N. unfold dinit_from_value, init_from_value in *. rewrite req_ne, dallocate_run by lia. cbn [bind].
  head (allocate nomem n m); auto.
  rewrite dfill_run by (intros X; rewrite X in H; auto). cbn [bind].
  destruct (fill fails a 0 n s m0) as [d m1|d m1|] eqn:E1; auto. apply ddrop_new_run; auto.
Qed.
Lemma dinit_range_run : forall r n ss (m : mem), init_from_range fails nomem r n ss m <> Bad -> n <> 0 -> n = length ss ->
  dinit_from_range fails nomem r n ss m = Run (init_from_range fails nomem r n ss m).
Proof.
  intros r n ss m H N L. unfold dinit_from_range, init_from_range in *. rewrite req_ne by auto. rewrite L at 1. rewrite Nat.eqb_refl.
  unfold requires. rewrite dallocate_run by lia. cbn [bind].
  head (allocate nomem n m); auto.
  destruct (copy fails a 0 ss m0) as [d m1|d m1|] eqn:E1; auto. apply ddrop_new_run; auto.
Qed.
Lemma dassign_run : forall r o n s (m : mem), raw_assign fails nomem half r o n s m <> Bad -> n <> 0 \/ cap r <> 0 ->
  draw_assign fails nomem half r o n s m = Run (raw_assign fails nomem half r o n s m).
Proof.
  intros r o n s m H N. unfold draw_assign, raw_assign in *.
  destruct ((n <=? cap r) && negb (cap r =? 0)) eqn:C.
  - destruct (ptr r) as [ob|]; auto. apply dthen_run; auto using ddestroy_run. intros _ m1 _ H1.
    rewrite dfill_run by (intros X; rewrite X in H1; auto). cbn [bind].
    destruct (fill fails ob 0 n s m1); auto. all: try (apply drethrow_run; auto using ddestroy_run).
  - assert (cap r < n).
    { destruct (Nat.leb_spec n (cap r)); [|lia]. destruct (Nat.eqb_spec (cap r) 0); [|discriminate]. lia. }
    rewrite dincrease_run by auto. pose proof (increase_ge half (cap r) n). rewrite dallocate_run by lia. cbn [bind].
    head (allocate nomem (increase half (cap r) n) m); auto.
    rewrite dfill_run by (intros X; rewrite X in H; auto). cbn [bind].
    destruct (fill fails a 0 n s m0) as [d m1|d m1|] eqn:E1; auto using ddrop_new_run.
    apply dthen_run; auto using ddrop_old_run.
Qed.
Lemma dresize_run : forall r o n s (m : mem), owned r m -> raw_resize fails nomem half r o n s m <> Bad ->
  draw_resize fails nomem half r o n s m = Run (raw_resize fails nomem half r o n s m).
Proof.
  intros r o n s m O H. unfold draw_resize, raw_resize in *.
  destruct (Nat.ltb_spec n o).
  - destruct (ptr r); auto. apply dthen_run; auto using ddestroy_run.
  - destruct (Nat.ltb_spec o n); auto. destruct (Nat.ltb_spec (cap r) n).
    + rewrite dincrease_run by auto. pose proof (increase_ge half (cap r) n). rewrite dallocate_run by lia. cbn [bind].
      head (allocate nomem (increase half (cap r) n) m); auto. apply allocate_new in E; subst a.
      assert (X : (match ptr r with Some ob => dtransfer fails ob 0 o (next m) 0 m0 | None => Run (Ok 0 m0) end)
                = Run (match ptr r with Some ob => transfer fails ob 0 o (next m) 0 m0 | None => Ok 0 m0 end)).
      { destruct (ptr r) as [ob|] eqn:P; auto. apply dtransfer_run.
        - intros X; rewrite X in H; auto. - specialize (O ob P). lia. }
      rewrite X. cbn [bind].
      destruct (match ptr r with Some ob => transfer fails ob 0 o (next m) 0 m0 | None => Ok 0 m0 end); auto using ddrop_new_run.
      rewrite dfill_run by (intros Y; rewrite Y in H; auto). cbn [bind].
      destruct (fill fails (next m) a n s m1); auto using ddrop_new_run. apply dthen_run; auto using ddrop_old_run.
    + destruct (ptr r); auto. rewrite dfill_run by (intros Y; rewrite Y in H; auto). cbn [bind].
      destruct (fill fails n0 o n s m); auto. apply drethrow_run; auto using ddestroy_run.
Qed.
Lemma drelocate_run : forall r o nc (m : mem), owned r m -> 0 < nc -> relocate fails nomem r o nc m <> Bad ->
  drelocate fails nomem r o nc m = Run (relocate fails nomem r o nc m).
Proof.
  intros r o nc m O N H. unfold drelocate, relocate in *. rewrite dallocate_run by auto. cbn [bind].
  head (allocate nomem nc m); auto. apply allocate_new in E; subst a.
  destruct (ptr r) as [ob|] eqn:P; auto. specialize (O ob P).
  rewrite dtransfer_run by (first [lia | intros Y; rewrite Y in H; auto]). cbn [bind].
  destruct (transfer fails ob 0 o (next m) 0 m0); auto using ddrop_new_run. apply dthen_run; auto using ddrop_old_run.
Qed.
Lemma dprepare_push_back_run : forall r o n (m : mem), owned r m -> prepare_push_back fails nomem half r o n m <> Bad ->
  dprepare_push_back fails nomem half r o n m = Run (prepare_push_back fails nomem half r o n m).
Proof.
  intros r o n m O H. unfold dprepare_push_back, prepare_push_back in *. destruct (Nat.ltb_spec (cap r) n); auto.
  rewrite dincrease_run by auto. pose proof (increase_ge half (cap r) n). apply drelocate_run; auto; lia.
Qed.
Lemma dreserve_run : forall r o n (m : mem), owned r m -> raw_reserve fails nomem r o n m <> Bad ->
  draw_reserve fails nomem r o n m = Run (raw_reserve fails nomem r o n m).
Proof.
  intros r o n m O H. unfold draw_reserve, raw_reserve in *. destruct (Nat.ltb_spec (cap r) n); auto.
  apply drelocate_run; auto; lia.
Qed.
Lemma dshrink_run : forall r n (m : mem), owned r m -> raw_shrink fails nomem r n m <> Bad ->
  draw_shrink fails nomem r n m = Run (raw_shrink fails nomem r n m).
Proof.
  intros r n m O H. unfold draw_shrink, raw_shrink in *. destruct (ptr r) eqn:P; auto. destruct (n =? cap r); auto.
  destruct (Nat.ltb_spec 0 n).
  - apply drelocate_run; auto.
  - apply dthen_run; auto using ddrop_old_run.
Qed.
Lemma dprepare_insert_run : forall r o off count es (m : mem), owned r m -> 0 < count * es -> off <= o ->
  prepare_insert fails nomem half r o off count es m <> Bad ->
  dprepare_insert fails nomem half r o off count es m = Run (prepare_insert fails nomem half r o off count es m).
Proof.
  intros r o off count es m O N L H. unfold dprepare_insert, prepare_insert in *. set (ins := count * es) in *. clearbody ins.
  rewrite req_lt by lia. destruct (Nat.ltb_spec (cap r) (o + ins)).
  - rewrite dincrease_run by auto. pose proof (increase_ge half (cap r) (o + ins)). rewrite dallocate_run by lia. cbn [bind].
    head (allocate nomem (increase half (cap r) (o + ins)) m); auto. apply allocate_new in E; subst a.
    destruct (ptr r) as [ob|] eqn:P; auto. specialize (O ob P).
    rewrite dtransfer_run by (first [lia | intros Y; rewrite Y in H; auto]). cbn [bind].
    destruct (transfer fails ob 0 off (next m) 0 m0) as [dl m1|dl m1|]; auto using ddrop_new_run.
    rewrite dtransfer_run by (first [lia | intros Y; rewrite Y in H; auto]). cbn [bind].
    destruct (transfer fails ob off o (next m) (off + ins) m1) as [dr m2|dr m2|]; auto.
    + apply dthen_run; auto using ddrop_old_run.
    + apply dthen_run; auto using ddestroy_run. intros _ m3 _ H3. apply drethrow_run; auto. intros.
      apply dthen_run; auto using ddestroy_run.
  - destruct (ptr r) as [ob|]; auto. destruct (Nat.leb_spec (o - off) ins).
    + rewrite dtransfer_run by (first [lia | intros Y; rewrite Y in H; auto]). cbn [bind].
      destruct (transfer fails ob off o ob (off + ins) m) as [d m1|d m1|]; auto.
      * apply dthen_run; auto using ddestroy_run.
      * apply drethrow_run; auto using ddestroy_run.
    + rewrite dtransfer_run by (first [lia | intros Y; rewrite Y in H; auto]). cbn [bind].
      destruct (transfer fails ob (o - (o + ins - o)) o ob (o + ins - (o + ins - o)) m) as [dt m1|dt m1|]; auto.
      * rewrite req_lt by lia. rewrite dright_run by (first [lia | intros Y; rewrite Y in H; auto]). cbn [bind].
        destruct (transfer_right fails ob off (o - (o + ins - o)) o m1) as [d m2|d m2|]; auto.
        -- apply dthen_run; auto using ddestroy_run.
        -- apply dthen_run; auto using ddestroy_run. intros. apply drethrow_run; auto using ddestroy_run.
      * apply drethrow_run; auto using ddestroy_run.
Qed.
Lemma derase_run : forall r o off count es (m : mem), 0 < count * es ->
  raw_erase fails r o off count es m <> Bad ->
  draw_erase fails r o off count es m = Run (raw_erase fails r o off count es m).
Proof.
  intros r o off count es m N H. unfold draw_erase, raw_erase in *.
  rewrite req_ne by (intros ->; lia). set (era := count * es) in *. clearbody era.
  destruct (Nat.ltb_spec o era); [congruence|]. rewrite req_le by auto.
  destruct (ptr r) as [ob|]; auto.
  rewrite dleft_run by (first [lia | intros Y; rewrite Y in H; auto]). cbn [bind].
  destruct (transfer_left fails ob (off + era) o off m) as [d m1|d m1|]; auto.
  - apply dthen_run; auto using ddestroy_run.
  - apply dthen_run; auto using ddestroy_run. intros. apply drethrow_run; auto using ddestroy_run.
Qed.

(* ---- the vector ---- *)
Lemma ddestroy_all_run : forall v (m : mem), destroy_all v m <> Bad -> ddestroy_all v m = Run (destroy_all v m).
Proof.
  intros v m H. unfold ddestroy_all, destroy_all in *. destruct (vsize v =? 0); auto. destruct (ptr (vraw v)); auto using ddestroy_run.
Qed.
Lemma ddestruct_vec_run : forall v (m : mem), destruct_vec v m <> Bad -> ddestruct_vec v m = Run (destruct_vec v m).
Proof. intros v m H. unfold ddestruct_vec, destruct_vec in *. apply dthen_run; auto using ddestroy_all_run. Qed.
Lemma ddestruct_all_run : forall vs (m : mem), destruct_all vs m <> Bad -> ddestruct_all vs m = Run (destruct_all vs m).
Proof.
  induction vs as [|v vs IH]; intros m H; cbn [destruct_all ddestruct_all] in *; auto.
  apply dthen_run; auto using ddestruct_vec_run.
Qed.
Lemma dinsert_srcs_run : forall v off ss (m : mem), owned (vraw v) m -> ss <> [] -> off <= vsize v ->
  insert_srcs fails nomem half v off ss m <> Bad ->
  dinsert_srcs fails nomem half v off ss m = Run (insert_srcs fails nomem half v off ss m).
Proof.
  intros v off ss m O N L H. unfold dinsert_srcs, insert_srcs in *.
  assert (E : dprepare_insert_1 fails nomem half v off (length ss) m = Run (prepare_insert_1 fails nomem half v off (length ss) m)).
  { unfold dprepare_insert_1, prepare_insert_1 in *. rewrite dprepare_insert_run; auto.
    - destruct ss; [congruence|simpl; lia].
    - intros Y; rewrite Y in H; auto. }
  rewrite E. cbn [bind]. destruct (prepare_insert_1 fails nomem half v off (length ss) m) as [v1 m1|v1 m1|]; auto.
  destruct (ptr (vraw v1)); auto. destruct (copy fails n off ss m1); auto. apply drethrow_run; auto using ddestroy_run.
Qed.
Lemma derase__run : forall v off count (m : mem), 0 < count -> erase_ fails v off count m <> Bad ->
  derase_ fails v off count m = Run (erase_ fails v off count m).
Proof.
  intros v off count m N H. unfold derase_, erase_ in *. rewrite req_le.
  - rewrite derase_run; auto; [lia|]. intros Y; rewrite Y in H; auto.
  - unfold raw_erase in H. rewrite Nat.mul_1_r in H. destruct (Nat.ltb_spec (vsize v) count); [congruence|auto].
Qed.
Lemma dcopy_construct_run : forall v xs (m : mem), vgood m v xs -> vsize v <> 0 -> copy_construct fails nomem v m <> Bad ->
  dcopy_construct fails nomem v m = Run (copy_construct fails nomem v m).
Proof.
  intros v xs m [G S] N H. unfold dcopy_construct, copy_construct in *.
  rewrite dinit_range_run; auto.
  - intros Y; rewrite Y in H; auto.
  - unfold elems. unfold good in G. destruct (ptr (vraw v)).
    + rewrite map_length, seq_length; auto.
    + destruct G as [_ ->]. rewrite S; auto.
Qed.

Lemma don_run : forall vs i (m : mem) (f : vec -> mem -> out vec) (g : vec -> mem -> dout vec) v, nth_error vs i = Some v -> on vs i m f <> Bad ->
  (f v m <> Bad -> g v m = Run (f v m)) -> don vs i m g = Run (on vs i m f).
Proof.
  intros vs i m f g v Hv H K. unfold don, on in *. rewrite Hv in *. rewrite K; [reflexivity|].
  intros Y; rewrite Y in H; auto.
Qed.
Lemma don_stop : forall vs i (m : mem) (g : vec -> mem -> dout vec) v, nth_error vs i = Some v -> g v m = Stop -> don vs i m g = Stop.
Proof. intros vs i m g v Hv E. unfold don. rewrite Hv, E. reflexivity. Qed.

Lemma dresized_run : forall v n (x : @dout V rv) (y : out rv), (y <> Bad -> x = Run y) ->
  match y with Ok r m1 => Ok (Vec r n) m1 | Exc r m1 => Exc (Vec r (vsize v)) m1 | Bad => Bad end <> Bad ->
  resized v n x = Run (match y with Ok r m1 => Ok (Vec r n) m1 | Exc r m1 => Exc (Vec r (vsize v)) m1 | Bad => Bad end).
Proof. intros v n x y E H. unfold resized. rewrite E; [reflexivity|]. intros Y; rewrite Y in H; auto. Qed.

Lemma nothing_nil : forall {A} (l : list A), nothing l = (length l =? 0).
Proof. destruct l; auto. Qed.

(* one operation in a good world *)
Theorem dexec_spec : forall (op : @vop V) (m : mem) vs (ls : list (list V)), wgood m vs ls -> legal ls op -> (inserts op -> forall t, nomem t = false) ->
  dexec fails nomem half op vs m =
    if halts op ls (map (fun v => cap (vraw v)) vs) then Stop else Run (exec fails nomem half op vs m).
Proof.
  intros op m vs ls W L NI.
  pose proof (exec_spec fails nomem half op m vs ls W L NI) as P.
  assert (NB : exec fails nomem half op vs m <> Bad) by (intros X; rewrite X in P; exact P). clear P.
  assert (GET : forall i xs, nth_error ls i = Some xs -> exists v, nth_error vs i = Some v /\ vgood m v xs /\ owned (vraw v) m).
  { intros i xs H. destruct (Forall2_nth_r _ _ _ _ _ (proj1 W) H) as (v & Hv & G). exists v. split; auto. split; auto.
    intros b Hb. eapply good_lt; [apply G|auto]. }
  inversion L; subst; clear L; cbn [exec halts dexec] in *; auto.
  - (* Make *)
    destruct (resolve_reads m vs ls a v W H) as (s & Es & _). unfold with_src, dwith_src in *; rewrite Es in *.
    destruct (Nat.eqb_spec n 0) as [->|N].
    + reflexivity.
    + unfold dadding. rewrite dinit_value_run; auto. intros X; rewrite X in NB; auto.
  - destruct (resolve_all_reads m vs ls l vs0 W H) as (ss & Es & _ & Ls & _). unfold with_srcs, dwith_srcs in *; rewrite Es in *.
    rewrite nothing_nil. destruct (Nat.eqb_spec (length l) 0) as [N|N].
    + rewrite N. reflexivity.
    + unfold dadding. rewrite dinit_range_run; auto. intros X; rewrite X in NB; auto.
  - destruct (GET _ _ H) as (v & Hv & G & O). rewrite Hv in *. rewrite (get_nth _ _ _ H), nothing_nil, <- (proj2 G).
    destruct (Nat.eqb_spec (vsize v) 0) as [N|N].
    + unfold dcopy_construct, dinit_from_range. rewrite N. reflexivity.
    + rewrite (dcopy_construct_run v xs); auto. intros X; rewrite X in NB; auto.
  - destruct (GET _ _ H) as (v & Hv & G & O). rewrite Hv in *. auto.
  - destruct (GET _ _ H) as (v' & Hv & G & O). destruct (resolve_reads m vs ls a v W H0) as (s & Es & _).
    unfold with_src, dwith_src in *; rewrite Es in *. eapply don_run; eauto. intros K. unfold dpush_back, push_back in *.
    rewrite dprepare_push_back_run; auto; [|intros X; rewrite X in K; auto]. cbn [bind].
    destruct (prepare_push_back fails nomem half (vraw v') (vsize v') (S (vsize v')) m) as [r m1|r m1|]; auto. destruct (ptr r); auto.
  - destruct (GET _ _ H) as (v' & Hv & G & O). eapply don_run; eauto.
  - destruct (GET _ _ H) as (v' & Hv & G & O). destruct (resolve_reads m vs ls a v W H1) as (s & Es & _).
    unfold with_src, dwith_src in *; rewrite Es in *. eapply don_run; eauto. intros K. unfold dinsert_one, insert_one in *.
    destruct (Nat.ltb_spec (vsize v') off); auto. apply dinsert_srcs_run; auto. discriminate.
  - destruct (GET _ _ H) as (v' & Hv & G & O). destruct (resolve_reads m vs ls a v W H1) as (s & Es & _).
    unfold with_src, dwith_src in *; rewrite Es in *. eapply don_run; eauto. intros K. unfold dinsert_count, insert_count in *.
    destruct (Nat.ltb_spec (vsize v') off); auto. destruct (Nat.eqb_spec n 0); auto. apply dinsert_srcs_run; auto. destruct n; [auto|discriminate].
  - destruct (GET _ _ H) as (v' & Hv & G & O). destruct (resolve_all_reads m vs ls l vs0 W H1) as (ss & Es & _).
    unfold with_srcs, dwith_srcs in *; rewrite Es in *. eapply don_run; eauto. intros K. unfold dinsert_range, insert_range in *.
    destruct (Nat.ltb_spec (vsize v') off); auto. destruct ss; auto. apply dinsert_srcs_run; auto. discriminate.
  - destruct (GET _ _ H) as (v' & Hv & G & O). eapply don_run; eauto. intros K. unfold derase_one, erase_one in *.
    destruct (Nat.ltb_spec (vsize v') off); auto. destruct (vsize v' =? 0); auto. apply derase__run; auto.
  - destruct (GET _ _ H) as (v' & Hv & G & O). eapply don_run; eauto. intros K. unfold derase_range, erase_range in *.
    destruct ((vsize v' <? a) || (vsize v' <? b)); auto. destruct (Nat.ltb_spec b a); auto. destruct (Nat.eqb_spec a b); auto.
    destruct (vsize v' <? b - a); auto. apply derase__run; auto. lia.
  - destruct (GET _ _ H) as (v' & Hv & G & O). destruct (resolve_reads m vs ls a v W H0) as (s & Es & _).
    unfold with_src, dwith_src in *; rewrite Es in *. eapply don_run; eauto. intros K. unfold resize in *. apply dresized_run; auto.
    intros. apply dresize_run; auto.
  - destruct (GET _ _ H) as (v' & Hv & G & O). destruct (resolve_reads m vs ls a v W H0) as (s & Es & _).
    unfold with_src, dwith_src in *; rewrite Es in *.
    assert (C : nth i (map (fun v => cap (vraw v)) vs) 0 = cap (vraw v')).
    { apply nth_error_nth. rewrite nth_error_map, Hv; auto. }
    rewrite C. destruct (Nat.eqb_spec n 0) as [->|N]; cbn [andb].
    + destruct (Nat.eqb_spec (cap (vraw v')) 0) as [C0|C0].
      * eapply don_stop; eauto. unfold dassign, draw_assign. rewrite C0. reflexivity.
      * eapply don_run; eauto. intros K. unfold dassign, assign in *. rewrite dassign_run; auto. intros X; rewrite X in K; auto.
    + eapply don_run; eauto. intros K. unfold dassign, assign in *. rewrite dassign_run; auto. intros X; rewrite X in K; auto.
  - destruct (GET _ _ H) as (v' & Hv & G & O). eapply don_run; eauto. intros K. unfold reserve in *. apply dresized_run; auto.
    intros. apply dreserve_run; auto.
  - destruct (GET _ _ H) as (v' & Hv & G & O). eapply don_run; eauto. intros K. unfold shrink_to_fit in *. apply dresized_run; auto.
    intros. apply dshrink_run; auto.
  - destruct (GET _ _ H) as (v' & Hv & G & O). eapply don_run; eauto. intros K. unfold dclear, clear in *. apply dthen_run; auto using ddestroy_all_run.
  - destruct (GET _ _ H) as (v & Hv & G & O). destruct (GET _ _ H0) as (w & Hw & Gw & Ow). rewrite Hw in *.
    destruct (Nat.eqb_spec i j); cbn [negb requires orb]; auto. rewrite (get_nth _ _ _ H0), nothing_nil, <- (proj2 Gw).
    destruct (Nat.eqb_spec (vsize w) 0) as [N|N].
    + eapply don_stop; eauto. unfold dcopy_assign, dcopy_construct, dinit_from_range. rewrite N. reflexivity.
    + eapply don_run; eauto. intros K. unfold dcopy_assign, copy_assign in *.
      rewrite (dcopy_construct_run w ys); auto; [|intros X; rewrite X in K; auto]. cbn [bind].
      destruct (copy_construct fails nomem w m); auto. apply dthen_run; auto using ddestruct_vec_run.
  - destruct (GET _ _ H) as (v & Hv & G & O). destruct (GET _ _ H0) as (w & Hw & Gw & Ow). rewrite Hv, Hw in *.
    destruct (Nat.eqb_spec i j); cbn [negb requires]; auto.
    assert (E : dmove_assign v w m = Run (move_assign v w m)).
    { unfold dmove_assign, move_assign in *. apply dthen_run; auto using ddestroy_all_run.
      - intros X; rewrite X in NB; auto.
      - intros. apply dthen_run; auto. }
    rewrite E. reflexivity.
  - destruct (GET _ _ H) as (v & Hv & G & O). destruct (GET _ _ H0) as (w & Hw & Gw & Ow). rewrite Hv, Hw in *. auto.
Qed.

Lemma prudent_halts : forall (op : @vop V) (m : mem) vs (ls : list (list V)), wgood m vs ls -> legal ls op -> prudent op ls ->
  halts op ls (map (fun v => cap (vraw v)) vs) = false.
Proof.
  intros op m vs ls W L P.
  assert (NN : forall (A : Type) (l : list A), l <> [] -> nothing l = false) by (destruct l; auto; congruence).
  inversion L; subst; cbn [halts prudent] in *; auto.
  - apply Nat.eqb_neq; auto.
  - destruct (Nat.eqb_spec n 0) as [->|]; auto. cbn [andb]. specialize (P eq_refl).
    destruct (Forall2_nth_r _ _ _ _ _ (proj1 W) H) as (v' & Hv & G).
    assert (C : nth i (map (fun v => cap (vraw v)) vs) 0 = cap (vraw v')).
    { apply nth_error_nth. rewrite nth_error_map, Hv; auto. }
    rewrite C. pose proof (good_cap _ _ _ (proj1 G)). rewrite (get_nth _ _ _ H) in P.
    apply Nat.eqb_neq. destruct xs; [congruence|simpl in *; lia].
  - destruct P as [P1 P2]. rewrite NN by auto. apply Nat.eqb_neq in P1. rewrite P1. auto.
  - apply Nat.eqb_neq; auto.
Qed.

Lemma drun_quiet : (forall t, fails t = false) -> (forall t, nomem t = false) ->
  forall ops vs (m : mem) ls, wgood m vs ls -> legal_all ops ls -> prudent_play ops ls ->
  drun fails nomem half ops vs m = Some (run fails nomem half ops vs m).
Proof.
  intros Hf Hn. induction ops as [|op ops IH]; intros vs m ls W L Q; auto.
  destruct L as [L1 L2], Q as [Q1 Q2]. cbn [run drun].
  pose proof (exec_spec fails nomem half op m vs ls W L1 (fun _ => Hn)) as P.
  rewrite (dexec_spec op m vs ls W L1 (fun _ => Hn)), (prudent_halts op m vs ls W L1 Q1).
  destruct (exec fails nomem half op vs m) as [vs1 m1|vs1 m1|]; [| |contradiction].
  - destruct P as (ls1 & W1 & R). unfold effect in *. rewrite R in *.
    rewrite (IH vs1 m1 ls1 W1 L2 Q2). cbn [option_map]. destruct (run fails nomem half ops vs1 m1) as [[[? ?] ?]|]; auto.
  - destruct P as (ls1 & W1 & [[R ->]|[[[t T]|[t T]] _]]); [|congruence|congruence].
    unfold effect in *. rewrite R in *.
    rewrite (IH vs1 m1 ls W1 L2 Q2). cbn [option_map]. destruct (run fails nomem half ops vs1 m1) as [[[? ?] ?]|]; auto.
Qed.
End Proofs.
