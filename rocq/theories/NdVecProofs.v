(* The N-D vector of NdVecModel: every member function does its operation on the
   list of slices, or throws leaving a known list of whole slices. *)
From Coq Require Import List Bool Arith Lia.
From Verif Require Import VecModel VecSpec VecProofs VecRaw VecOps NdVecModel NdVecSpec.
Import ListNotations.

Set Default Proof Using "Type".
Section Proofs.
Context {V : Type}.
Variable fails nomem : nat -> bool.
Variable half : nat.
Notation mem := (@mem V).
Notation src := (@src V).
Notation throws := (throws fails).
Notation oom := (oom nomem).
Notation arr := (@arr V).

(* ---- descriptors ---- *)
Lemma product_vol : forall e, product e = vol e.
Proof. induction e; simpl; auto. Qed.
Lemma init_sizes_cons : forall n r, init_sizes (n :: r) = (n, n * vol r) :: init_sizes r.
Proof.
  intros n r. revert n. induction r as [|k r IH]; intros n; simpl; [rewrite Nat.mul_1_r; auto|].
  simpl in IH. rewrite IH. auto.
Qed.
Lemma init_sizes_fst : forall e, map fst (init_sizes e) = e.
Proof. induction e as [|n r IH]; auto. rewrite init_sizes_cons. simpl. f_equal; auto. Qed.
Lemma init_sizes_len : forall e, length (init_sizes e) = length e.
Proof. intros e. rewrite <- (map_length fst), init_sizes_fst; auto. Qed.
Lemma total_init : forall r n e, total_size (NVec r (init_sizes (n :: e))) = n * vol e.
Proof. intros. unfold total_size; cbn [descs]. rewrite init_sizes_cons. auto. Qed.
Lemma top_init : forall r n e, top (NVec r (init_sizes (n :: e))) = n.
Proof. intros. unfold top; cbn [descs]. rewrite init_sizes_cons. auto. Qed.
Lemma esize_init : forall r n e, e <> [] -> element_size (NVec r (init_sizes (n :: e))) = vol e.
Proof.
  intros r n [|k e] H; [congruence|]. unfold element_size; cbn [descs]. rewrite !init_sizes_cons. auto.
Qed.
Lemma update_init : forall k n e, e <> [] -> update_top k (init_sizes (n :: e)) = init_sizes (k :: e).
Proof.
  intros k n [|j e] H; [congruence|]. rewrite !init_sizes_cons. cbn [update_top vol]. rewrite (Nat.mul_comm (j * vol e) k). reflexivity.
Qed.
Lemma set_init : forall r r' k n e, e <> [] -> set_top (NVec r (init_sizes (n :: e))) r' k = NVec r' (init_sizes (k :: e)).
Proof. intros. unfold set_top; cbn [descs]. rewrite update_init; auto. Qed.

(* ---- slices ---- *)
Definition nwf (a : arr) : Prop :=
  Forall (fun s => length s = vol (sub a)) (slices a) /\ (slices a <> [] -> vol (sub a) <> 0) /\ sub a <> [].

Lemma concat_len : forall k (l : list (list V)), Forall (fun s => length s = k) l -> length (concat l) = length l * k.
Proof. intros k l H. induction H; simpl; auto. rewrite app_length. lia. Qed.
Lemma firstn_concat : forall k (l : list (list V)) n, Forall (fun s => length s = k) l ->
  firstn (n * k) (concat l) = concat (firstn n l).
Proof.
  intros k l n H. revert n. induction H as [|s l Hs H IH]; intros n; simpl.
  - rewrite !firstn_nil. auto.
  - destruct n; [auto|]. simpl. rewrite firstn_app. rewrite (firstn_all2 s) by lia. f_equal.
    replace (k + n * k - length s) with (n * k) by lia. auto.
Qed.
Lemma skipn_concat : forall k (l : list (list V)) n, Forall (fun s => length s = k) l ->
  skipn (n * k) (concat l) = concat (skipn n l).
Proof.
  intros k l n H. revert n. induction H as [|s l Hs H IH]; intros n; simpl.
  - rewrite !skipn_nil. auto.
  - destruct n; [auto|]. simpl. rewrite skipn_app. rewrite (skipn_all2 s) by lia. simpl.
    replace (k + n * k - length s) with (n * k) by lia. auto.
Qed.
Lemma insert_concat : forall k p (l x : list (list V)), Forall (fun s => length s = k) l ->
  concat (insert_at p x l) = insert_at (p * k) (concat x) (concat l).
Proof. intros. unfold insert_at. rewrite !concat_app, (firstn_concat k), (skipn_concat k); auto. Qed.
Lemma erase_concat : forall k p n (l : list (list V)), Forall (fun s => length s = k) l ->
  concat (erase_at p n l) = firstn (p * k) (concat l) ++ skipn (p * k + n * k) (concat l).
Proof. intros. unfold erase_at. rewrite !concat_app, (firstn_concat k), <- Nat.mul_add_distr_r, (skipn_concat k); auto. Qed.
Lemma Forall_firstn : forall {A} (P : A -> Prop) n l, Forall P l -> Forall P (firstn n l).
Proof. intros A P n l H. revert n. induction H; destruct n; simpl; auto. Qed.
Lemma Forall_skipn : forall {A} (P : A -> Prop) n l, Forall P l -> Forall P (skipn n l).
Proof. intros A P n l H. revert n. induction H; destruct n; simpl; auto. Qed.
Lemma Forall_insert : forall {A} (P : A -> Prop) n x l, Forall P l -> Forall P x -> Forall P (insert_at n x l).
Proof. intros. unfold insert_at. apply Forall_app. split; [apply Forall_firstn; auto|]. apply Forall_app. split; auto. apply Forall_skipn; auto. Qed.
Lemma Forall_erase : forall {A} (P : A -> Prop) n k l, Forall P l -> Forall P (erase_at n k l).
Proof. intros. unfold erase_at. apply Forall_app. split; [apply Forall_firstn; auto|]. apply Forall_skipn; auto. Qed.
Lemma pieces_len : forall n k (xs : list V), length (pieces n k xs) = n.
Proof. induction n; simpl; auto. Qed.
Lemma pieces_wf : forall n k (xs : list V), length xs = n * k -> Forall (fun s => length s = k) (pieces n k xs).
Proof.
  induction n; simpl; intros k xs H; constructor.
  - rewrite firstn_length. lia.
  - apply IHn. rewrite skipn_length. lia.
Qed.
Lemma pieces_concat : forall n k (xs : list V), length xs = n * k -> concat (pieces n k xs) = xs.
Proof.
  induction n; simpl; intros k xs H; [destruct xs; [auto|discriminate]|].
  rewrite IHn, firstn_skipn; auto. rewrite skipn_length. lia.
Qed.
Lemma concat_repeat : forall n k (x : V), concat (repeat (repeat x k) n) = repeat x (n * k).
Proof. induction n; simpl; intros; auto. rewrite IHn, <- repeat_app. auto. Qed.

Lemma flat_len : forall a, nwf a -> length (flat a) = length (slices a) * vol (sub a).
Proof. intros a (H & _). apply concat_len; auto. Qed.
Lemma empty_iff : forall a, nwf a -> length (slices a) * vol (sub a) = 0 -> slices a = [].
Proof.
  intros a (_ & N & _) H. destruct (slices a) as [|s l] eqn:E; auto. exfalso.
  assert (vol (sub a) <> 0) by (apply N; discriminate). simpl in H. destruct (vol (sub a)); lia.
Qed.

(* ---- states ---- *)
Definition ngood (m : mem) (v : nvec) (a : arr) : Prop :=
  nwf a /\ good m (nraw v) (flat a) /\ descs v = init_sizes (length (slices a) :: sub a).
Definition nafter (m : mem) (v : nvec) (m' : mem) (v' : nvec) (a : arr) : Prop :=
  nwf a /\ after m (nraw v) m' (nraw v') (flat a) /\ descs v' = init_sizes (length (slices a) :: sub a).
Lemma nafter_refl : forall m v a, ngood m v a -> fresh m -> nafter m v m v a.
Proof. intros m v a (W & G & D) F. split; auto. split; auto. apply after_refl; auto. Qed.

Definition npost (op : nop) (m : mem) (v : nvec) (a : arr) (o : out (nvec * option nat)) : Prop :=
  match o with
  | Ok (v', it) m' => exists a', nresult op a = Some a' /\ nafter m v m' v' a' /\
      match returned op a with Some k => it = Some (k * vol (sub a')) | None => True end
  | Exc (v', _) m' => exists a', nafter m v m' v' a' /\
      ((nresult op a = None /\ a' = a) \/ ((throws \/ oom) /\ ndamaged op a a'))
  | Bad => False
  end.

Lemma fits_match : forall a r sd, nwf a -> length sd = length (sub a) ->
  match_sub (NVec r (init_sizes (length (slices a) :: sub a))) sd = fits a sd.
Proof.
  intros a r sd W L. unfold match_sub, fits. rewrite total_init.
  unfold extents; cbn [descs]. rewrite init_sizes_fst. cbn [tl].
  assert (E : length (tl (init_sizes (length (slices a) :: sub a))) = length (sub a)).
  { rewrite init_sizes_cons. cbn [tl]. apply init_sizes_len. }
  rewrite E, L, Nat.eqb_refl. destruct (slices a) as [|s l] eqn:Es; auto.
  destruct (Nat.eqb_spec (length (s :: l) * vol (sub a)) 0) as [Z|]; auto.
  apply empty_iff in W; [|rewrite Es; exact Z]. congruence.
Qed.
Lemma adopt_init : forall a r sd, nwf a -> fits a sd = true ->
  init_if_empty (NVec r (init_sizes (length (slices a) :: sub a))) sd
    = NVec r (init_sizes (length (slices a) :: adopt a sd)).
Proof.
  intros a r sd W F. unfold init_if_empty. rewrite total_init. cbn [nraw].
  destruct (Nat.eqb_spec (length (slices a) * vol (sub a)) 0) as [Z|Z].
  - apply empty_iff in Z; auto. unfold adopt. rewrite Z. auto.
  - unfold adopt. destruct (slices a) as [|s l]; auto. simpl in Z; lia.
Qed.
Lemma fits_adopt : forall (a : arr) sd, fits a sd = true -> adopt a sd = sd.
Proof.
  intros a sd. unfold fits, adopt, eq_dims. destruct (slices a); auto.
  destruct (list_eq_dec Nat.eq_dec sd (sub a)); [auto|discriminate].
Qed.
(* the vector after its dimensions were adopted *)
Lemma adopted : forall m r a sd, ngood m (NVec r (init_sizes (length (slices a) :: sub a))) a -> fits a sd = true ->
  length sd = length (sub a) -> vol sd <> 0 -> nwf (Arr sd (slices a)) /\ flat (Arr sd (slices a)) = flat a.
Proof.
  intros m r a sd ((W1 & W2 & W3) & _) F L Z. split; auto.
  pose proof (fits_adopt a sd F) as E. unfold adopt in E. split; [|split]; cbn [sub slices]; auto.
  - destruct (slices a); [constructor|]. rewrite <- E. auto.
  - destruct sd; [|discriminate]. destruct (sub a); [congruence|discriminate].
Qed.
Lemma damaged_same : forall op (a : arr) sd, (slices a <> [] -> sd = sub a) -> length sd = length (sub a) ->
  ndamaged op a (Arr sd (slices a)).
Proof. intros. split; [|split]; auto. Qed.

Lemma reads_ext : forall (m : mem) xs, Forall2 (reads m) (map Ext xs) xs.
Proof. induction xs; constructor; auto; reflexivity. Qed.
Lemma outside_ext : forall r (xs : list V), Forall (outside r) (map Ext xs).
Proof. induction xs; constructor; auto. intros b i H; discriminate. Qed.

(* ---- push_back ---- *)
Lemma npush_spec : forall m v a sd xs, ngood m v a -> fresh m -> nlegal a (NPush sd xs) ->
  npost (NPush sd xs) m v a (nexec fails nomem half (NPush sd xs) v m).
Proof.
  intros m [r ds] a sd xs G F L. inversion L as [? ? Lsd Lx Z | | | | | | | | | | | | ]; subst.
  pose proof G as (W & Gr & D). cbn [descs nraw] in *. subst ds. cbn [nexec]. unfold npush.
  rewrite fits_match by auto. destruct (fits a sd) eqn:Ef; cbn [negb].
  2:{ cbn [plain npost nresult]. exists a. rewrite Ef. split; auto. apply nafter_refl; auto. }
  cbn zeta. rewrite adopt_init by auto. rewrite (fits_adopt a sd Ef).
  destruct (adopted m r a sd G Ef Lsd Z) as (W' & Fl).
  assert (SD : slices a <> [] -> sd = sub a).
  { intros N. pose proof (fits_adopt a sd Ef) as E. unfold adopt in E. destruct (slices a); congruence. }
  rewrite total_init, top_init. cbn [nraw]. rewrite (product_vol sd).
  pose proof (flat_len _ W') as FL. rewrite Fl in FL. cbn [sub slices] in FL. rewrite <- FL.
  assert (SN : sd <> []) by (apply W').
  pose proof (push_prep_spec fails nomem half m r (flat a) (length (flat a) + vol sd) Gr F ltac:(lia)) as P.
  destruct (prepare_push_back fails nomem half r (length (flat a)) (length (flat a) + vol sd) m) as [r' m1|r' m1|]; auto.
  2:{ destruct P as (A & -> & T). cbn [plain npost]. exists (Arr sd (slices a)). split.
      - split; auto.
      - right. split; auto. apply damaged_same; auto. }
  destruct P as (A & Hc & _).
  destruct (ptr r') as [b|] eqn:P'.
  2:{ destruct A as (G1 & _). unfold good in G1. rewrite P' in G1. destruct G1 as (C0 & E0). rewrite E0 in Hc. simpl in Hc. lia. }
  assert (B1 : blk m1 b = Some (somes (flat a) ++ raws (length (map (@Ext V) xs)) ++ raws (cap r' - (length (flat a) + vol sd)))).
  { destruct A as (G1 & _). unfold good in G1. rewrite P' in G1. destruct G1 as (_ & _ & ->).
    rewrite <- raws_app, map_length, Lx. do 3 f_equal. lia. }
  pose proof (copy_spec fails (map Ext xs) xs b _ _ m1 (reads_ext m1 xs) B1) as C. rewrite somes_len in C.
  destruct (copy fails b (length (flat a)) (map Ext xs) m1) as [d m2|d m2|]; auto.
  - destruct C as (_ & B2 & O2). cbn [plain npost nresult]. rewrite Ef.
    exists (Arr sd (slices a ++ [xs])). rewrite (fits_adopt a sd Ef). split; auto. split; [|cbn [returned]; auto].
    rewrite set_init by auto. destruct W' as (W1 & W2 & W3). cbn [sub slices] in *.
    assert (FA : flat (Arr sd (slices a ++ [xs])) = flat a ++ xs).
    { unfold flat; cbn [slices]. rewrite concat_app. simpl. rewrite app_nil_r; auto. }
    split; [|split].
    + split; [|split]; cbn [sub slices]; auto. apply Forall_app; auto.
    + cbn [nraw]. rewrite FA. eapply (after_step m r m1 r' (flat a) m2 _ b); eauto.
      * rewrite app_length; lia.
      * rewrite B2, somes_app, <- !app_assoc. do 4 f_equal. rewrite app_length; lia.
    + cbn [descs sub slices]. rewrite app_length; auto.
  - destruct C as (k & Hk & Ed & B2 & O2 & T).
    destruct (destroy_spec (firstn k xs) b (somes (flat a)) (raws (length (map (@Ext V) xs) - k) ++ raws (cap r' - (length (flat a) + vol sd))) m2
       (length (flat a)) d) as (m3 & E3 & B3 & O3); auto.
    { rewrite somes_len; auto. }
    { rewrite somes_len, firstn_length. rewrite map_length in Hk. lia. }
    rewrite E3; cbn [rethrow plain npost]. exists (Arr sd (slices a)). split.
    + split; auto. split; auto. cbn [nraw]. rewrite Fl. eapply (after_step m r m1 r' (flat a) m3 _ b); eauto.
      * eapply others_trans; eauto.
      * lia.
      * rewrite B3, <- !raws_app. do 3 f_equal. rewrite firstn_length. rewrite map_length in *. lia.
    + right. split; auto. apply damaged_same; auto.
Qed.

(* ---- pop_back ---- *)
Lemma npop_spec : forall m v a, ngood m v a -> fresh m -> nlegal a NPop ->
  npost NPop m v a (nexec fails nomem half NPop v m).
Proof.
  intros m [r ds] a G F L. inversion L as [|NE | | | | | | | | | | | ]; subst.
  pose proof G as ((W1 & W2 & W3) & Gr & D). cbn [descs nraw] in *. subst ds. cbn [nexec]. unfold npop.
  destruct (exists_last NE) as (l & x & E). 
  rewrite top_init. rewrite E, app_length; cbn [length]. rewrite Nat.add_1_r. cbn [Nat.eqb].
  replace (S (length l) - 1) with (length l) by lia. rewrite set_init by auto. rewrite !total_init. cbn [nraw].
  rewrite E in W1. apply Forall_app in W1. destruct W1 as [Wl Wx]. inversion Wx as [|? ? Lx _]; subst.
  assert (Vz : vol (sub a) <> 0) by (apply W2; auto).
  assert (FA : flat a = concat l ++ x).
  { unfold flat. rewrite E, concat_app. simpl. rewrite app_nil_r; auto. }
  pose proof (concat_len _ _ Wl) as CL.
  pose proof (good_cap _ _ _ Gr) as Lc. rewrite FA, app_length in Lc.
  destruct (ptr r) as [b|] eqn:P.
  2:{ unfold good in Gr; rewrite P in Gr. destruct Gr as [_ Gr]. rewrite FA in Gr. apply app_eq_nil in Gr.
      destruct Gr as [_ ->]. simpl in Lx. lia. }
  assert (B : blk m b = Some (somes (concat l) ++ somes x ++ raws (cap r - length (flat a)))).
  { unfold good in Gr; rewrite P in Gr. destruct Gr as (_ & _ & ->). rewrite FA, somes_app, <- app_assoc. auto. }
  destruct (destroy_spec x b (somes (concat l)) (raws (cap r - length (flat a))) m (length l * vol (sub a)) (S (length l) * vol (sub a)) B) as (m' & E' & B' & O').
  { rewrite somes_len. lia. }
  { rewrite somes_len. simpl. lia. }
  rewrite E'; cbn [andthen plain npost nresult returned]. eexists. split; [reflexivity|]. split; auto.
  rewrite E, removelast_last. split; [|split].
  - split; [|split]; cbn [sub slices]; auto.
  - cbn [nraw]. unfold flat; cbn [slices]. apply (in_place m m' r (flat a) (concat l) b); auto.
    + rewrite FA, app_length in *; lia.
    + rewrite B', <- raws_app. do 3 f_equal. rewrite FA, app_length. lia.
  - auto.
Qed.

(* ---- insert ---- *)
Lemma copy_app : forall s1 s2 b i (m : mem),
  copy fails b i (s1 ++ s2) m = match copy fails b i s1 m with Ok d m' => copy fails b d s2 m' | Exc d m' => Exc d m' | Bad => Bad end.
Proof.
  induction s1 as [|s s1 IH]; intros s2 b i m; simpl; auto.
  destruct (construct fails b i s m); auto.
Qed.
Lemma copy_dst : forall ss b i (m : mem),
  match copy fails b i ss m with Ok d _ => d = i + length ss | Exc d _ => i <= d < i + length ss | Bad => True end.
Proof.
  induction ss as [|s ss IH]; intros b i m; simpl; [lia|].
  destruct (construct fails b i s m) as [u m1|u m1|]; auto; [|lia].
  specialize (IH b (S i) m1). destruct (copy fails b (S i) ss m1); auto; lia.
Qed.
Lemma copy_slices_eq : forall ss es, length ss = es -> 0 < es -> forall n b first k (m : mem),
  copy_slices fails n b first ss k m
  = match copy fails b first (concat (repeat ss n)) m with
    | Ok d m' => Ok (d, d, k + n) m'
    | Exc d m' => Exc (first + (d - first) / es * es, d, k + (d - first) / es) m'
    | Bad => Bad
    end.
Proof.
  intros ss es Ls Hes. induction n as [|n IH]; intros b first k m; cbn [copy_slices repeat concat].
  - simpl. rewrite Nat.add_0_r; auto.
  - rewrite copy_app. pose proof (copy_dst ss b first m) as D.
    destruct (copy fails b first ss m) as [d m1|d m1|]; auto.
    + rewrite IH. pose proof (copy_dst (concat (repeat ss n)) b d m1) as D2.
      destruct (copy fails b d (concat (repeat ss n)) m1) as [d2 m2|d2 m2|]; auto.
      * replace (S k + n) with (k + S n) by lia. auto.
      * assert (Q : (d2 - first) / es = S ((d2 - d) / es)).
        { replace (d2 - first) with ((d2 - d) + 1 * es) by lia. rewrite Nat.div_add by lia. lia. }
        rewrite Q. replace (S k + (d2 - d) / es) with (k + S ((d2 - d) / es)) by lia.
        replace (d + (d2 - d) / es * es) with (first + S ((d2 - d) / es) * es) by (simpl; lia). auto.
    + rewrite Nat.div_small by lia. simpl. rewrite !Nat.add_0_r. auto.
Qed.
Lemma ninsert_range_of : forall v p n sd ss (m : mem), length ss = product sd ->
  ninsert fails nomem half v p n sd ss m = ninsert_range fails nomem half v p sd (repeat ss n) m.
Proof.
  intros v p n sd ss m L. unfold ninsert, ninsert_range. rewrite repeat_length.
  destruct (top v <? p); auto. destruct (Nat.eqb_spec n 0); auto. destruct (negb (match_sub v sd)); auto.
  cbn zeta. destruct (Nat.eqb_spec (product sd) 0); auto.
  destruct (nprepare_insert fails nomem half (init_if_empty v sd) (p * element_size v) n (product sd) m) as [v2 m1|v2 m1|]; auto.
  destruct (ptr (nraw v2)); auto.
  rewrite (copy_slices_eq ss (product sd) L ltac:(lia)).
  destruct (copy fails n2 (p * element_size v) (concat (repeat ss n)) m1); auto.
Qed.

Lemma forall2_reads_concat : forall (m : mem) xss, Forall2 (reads m) (concat (map (map Ext) xss)) (concat xss).
Proof. intros m xss. rewrite <- concat_map. apply reads_ext. Qed.
Lemma prefix_firstn : forall {A} n (l : list A), prefix (firstn n l) l.
Proof. intros. exists (skipn n l). symmetry; apply firstn_skipn. Qed.

Definition ins_post (p : nat) (xss : list (list V)) (sd : list nat) m v (a : arr) (o : out (nvec * nat)) : Prop :=
  match o with
  | Ok (v', it) m' => fits a sd = true /\ nafter m v m' v' (Arr sd (insert_at p xss (slices a))) /\ it = p * vol sd
  | Exc (v', _) m' => (fits a sd = false /\ v' = v /\ m' = m) \/
      (fits a sd = true /\ throws /\ exists l, nafter m v m' v' (Arr sd l) /\
         (prefix l (slices a) \/ (prefix l (insert_at p xss (slices a)) /\ p <= length l)))
  | Bad => False
  end.
Lemma ninsert_range_spec : forall m v a p sd xss, ngood m v a -> fresh m -> (forall t, nomem t = false) ->
  p <= length (slices a) -> length sd = length (sub a) -> Forall (fun xs => length xs = vol sd) xss -> vol sd <> 0 ->
  xss <> [] ->
  ins_post p xss sd m v a (ninsert_range fails nomem half v p sd (map (map Ext) xss) m).
Proof.
  intros m [r ds] a p sd xss G F NM Hp Lsd Lx Z NE.
  pose proof G as (W & Gr & D). cbn [descs nraw] in *. subst ds. unfold ninsert_range. rewrite map_length.
  rewrite top_init. destruct (Nat.ltb_spec (length (slices a)) p); [lia|].
  destruct (Nat.eqb_spec (length xss) 0); [destruct xss; simpl in *; [congruence|lia]|].
  rewrite fits_match by auto. destruct (fits a sd) eqn:Ef; cbn [negb].
  2:{ cbn [ins_post]. left; auto. }
  cbn zeta. rewrite adopt_init by auto. rewrite (fits_adopt a sd Ef). rewrite product_vol.
  destruct (Nat.eqb_spec (vol sd) 0); [lia|].
  destruct (adopted m r a sd G Ef Lsd Z) as (W' & Fl).
  assert (W3 : sub a <> []) by apply W. rewrite (esize_init r _ (sub a)) by auto.
  assert (Eo : p * vol (sub a) = p * vol sd).
  { pose proof (fits_adopt a sd Ef) as E. unfold adopt in E. destruct (slices a); [|congruence].
    simpl in Hp. replace p with 0 by lia. auto. }
  rewrite Eo. set (k := vol sd) in *. assert (Hk : 0 < k) by lia.
  pose proof (flat_len _ W') as FL. rewrite Fl in FL. cbn [sub slices] in FL. fold k in FL.
  unfold nprepare_insert. rewrite total_init. cbn [nraw]. fold k. rewrite <- FL.
  assert (Wk : Forall (fun s => length s = k) (slices a)) by apply W'.
  assert (SN : sd <> []) by apply W'.
  assert (WF : forall l : list (list V), Forall (fun s => length s = k) l -> nwf (Arr sd l)).
  { intros l Hl. split; [|split]; cbn [sub slices]; auto. }
  assert (Kv : vol sd = k) by reflexivity. clearbody k.
  assert (Hc : 0 < length xss) by lia.
  assert (PK : p * k <= length (flat a)) by (rewrite FL; apply Nat.mul_le_mono_r; auto).
  pose proof (prepare_insert_spec fails nomem half m r (flat a) (p * k) (length xss) k Gr F ltac:(rewrite FL; nia) Hc Hk
     ltac:(rewrite FL; apply Nat.mod_mul; lia)) as P.
  destruct (prepare_insert fails nomem half r (length (flat a)) (p * k) (length xss) k m) as [[r' vc] m1|[r' vc] m1|]; auto.
  2:{ destruct P as (-> & [([t T] & _)|(T & Hv & A & _)]); [rewrite NM in T; discriminate|].
      cbn [ins_post]. rewrite set_init by auto. right. split; auto. split; auto. exists (firstn vc (slices a)).
      assert (Hv' : vc <= length (slices a)) by nia.
      split; [|left; apply prefix_firstn].
      split; [|split].
      - apply WF, Forall_firstn; auto.
      - cbn [nraw]. unfold flat; cbn [slices]. rewrite <- (firstn_concat k) by auto. exact A.
      - cbn [descs sub slices]. rewrite firstn_length. rewrite Nat.min_l by lia. auto. }
  destruct P as ((b & P' & Lb & Lc & B1) & Fr & F1). cbn [nraw descs]. rewrite P', total_init, top_init.
  assert (CLx : length (concat xss) = length xss * k) by (apply concat_len; auto).
  assert (CLs : length (concat (map (map (@Ext V)) xss)) = length xss * k).
  { rewrite <- concat_map, map_length; auto. }
  assert (LF : length (firstn (p * k) (flat a)) = p * k) by (rewrite firstn_length; nia).
  assert (LS : length (skipn (p * k) (flat a)) = length (flat a) - p * k) by apply skipn_length.
  rewrite <- CLs in B1.
  pose proof (copy_spec fails _ _ b _ _ m1 (forall2_reads_concat m1 xss) B1) as C. rewrite somes_len, LF in C.
  assert (FIN : forall m2 ys, others b m1 m2 -> length ys <= cap r' ->
     blk m2 b = Some (somes ys ++ raws (cap r' - length ys)) -> after m r m2 r' ys).
  { intros m2 ys [O2 N2] L B. destruct Fr as (N & O & Wr & D). split; [|split].
    - unfold good; rewrite P'; repeat split; auto; lia.
    - split; [lia|]. split; [|split]; auto.
      + intros b' H1 H2. rewrite O2 by congruence. auto.
      + intros b' H1. destruct (D b' H1) as [|Hd]; auto.
        destruct (Nat.eq_dec b' b) as [->|]; auto. right. rewrite O2; auto.
    - intros b' Hb. rewrite O2 by lia. apply F1; lia. }
  destruct (copy fails b (p * k) (concat (map (map Ext) xss)) m1) as [d m2|d m2|]; auto.
  - destruct C as (_ & B2 & O2). cbn [ins_post]. rewrite set_init by auto. split; auto. split; [|rewrite Kv; auto].
    assert (FA : flat (Arr sd (insert_at p xss (slices a))) = insert_at (p * k) (concat xss) (flat a)).
    { unfold flat; cbn [slices]. apply insert_concat; auto. }
    assert (LI : length (insert_at (p * k) (concat xss) (flat a)) = length (flat a) + length xss * k).
    { unfold insert_at. rewrite !app_length. lia. }
    split; [|split].
    + apply WF, Forall_insert; auto.
    + cbn [nraw]. rewrite FA. apply FIN; auto; [rewrite LI; lia|].
      rewrite B2. unfold insert_at. rewrite !somes_app, <- !app_assoc. do 5 f_equal. rewrite !app_length; lia.
    + cbn [descs slices sub]. do 2 f_equal. unfold insert_at. rewrite !app_length, firstn_length, skipn_length. lia.
  - destruct C as (q & Hq & Ed & B2 & O2 & Tr). rewrite CLs in Hq. rewrite CLs in B2. rewrite Kv.
    set (w := q / k). set (z := q mod k).
    assert (Dm : q = w * k + z) by (unfold w, z; rewrite (Nat.div_mod q k) at 1 by lia; lia).
    assert (Hz : z < k) by (apply Nat.mod_upper_bound; lia).
    assert (Hw : w < length xss) by (apply Nat.div_lt_upper_bound; lia).
    replace (d - p * k) with q by lia. fold w. clearbody w z.
    assert (Q1 : firstn q (concat xss) = concat (firstn w xss) ++ firstn z (skipn (w * k) (concat xss))).
    { rewrite Dm. rewrite <- (firstn_concat k) by auto.
      rewrite <- (firstn_skipn (w * k) (firstn (w * k + z) (concat xss))). f_equal.
      - rewrite firstn_firstn. f_equal. lia.
      - rewrite skipn_firstn_comm. f_equal. lia. }
    assert (LQ : length (firstn z (skipn (w * k) (concat xss))) = z).
    { rewrite firstn_length, skipn_length, CLx. nia. }
    assert (LW : length (concat (firstn w xss)) = w * k).
    { rewrite <- (firstn_concat k) by auto. rewrite firstn_length, CLx. nia. }
    destruct (destroy_spec (firstn z (skipn (w * k) (concat xss))) b (somes (firstn (p * k) (flat a)) ++ somes (concat (firstn w xss)))
       (raws (length xss * k - q) ++ somes (skipn (p * k) (flat a)) ++
        raws (cap r' - (p * k + length xss * k + length (skipn (p * k) (flat a))))) m2
       (p * k + w * k) d) as (m3 & E3 & B3 & O3).
    { rewrite B2, Q1, somes_app, <- !app_assoc. auto. }
    { rewrite app_length, !somes_len. lia. }
    { rewrite app_length, !somes_len. lia. }
    rewrite E3; cbn [andthen]. rewrite LQ in B3.
    destruct (destroy_spec (skipn (p * k) (flat a)) b (somes (firstn (p * k) (flat a)) ++ somes (concat (firstn w xss)) ++ raws (length xss * k - w * k))
       (raws (cap r' - (p * k + length xss * k + length (skipn (p * k) (flat a))))) m3 (p * k + length xss * k) (length (slices a) * k + length xss * k)) as (m4 & E4 & B4 & O4).
    { rewrite B3. rewrite <- !app_assoc. do 3 f_equal. rewrite !app_assoc. do 2 f_equal. rewrite <- raws_app. f_equal. lia. }
    { rewrite !app_length, !somes_len, raws_len. nia. }
    { rewrite !app_length, !somes_len, raws_len. nia. }
    cbn [nraw] in *. rewrite E4; cbn [rethrow ins_post]. rewrite set_init by auto.
    right. split; auto. split; auto. exists (firstn p (slices a) ++ firstn w xss).
    rewrite (Nat.div_mul p k) by lia.
    assert (FA : flat (Arr sd (firstn p (slices a) ++ firstn w xss)) = firstn (p * k) (flat a) ++ concat (firstn w xss)).
    { unfold flat; cbn [slices]. rewrite concat_app. f_equal. symmetry; apply firstn_concat; auto. }
    split; [split; [|split]|].
    + apply WF, Forall_app. split; apply Forall_firstn; auto.
    + cbn [nraw]. rewrite FA. apply FIN.
      * eapply others_trans; [|eassumption]. eapply others_trans; eauto.
      * rewrite app_length. nia.
      * rewrite B4, somes_app, <- !app_assoc, <- !raws_app. do 4 f_equal. rewrite app_length. nia.
    + cbn [descs slices sub]. do 2 f_equal. rewrite app_length, !firstn_length. lia.
    + right. split; [|rewrite app_length, firstn_length; lia].
      exists (skipn w xss ++ skipn p (slices a)). unfold insert_at. rewrite <- app_assoc. f_equal.
      rewrite app_assoc, firstn_skipn. auto.
Qed.

Lemma sub_of_fits : forall (a : arr) sd, fits a sd = true -> slices a <> [] -> sd = sub a.
Proof. intros a sd F N. pose proof (fits_adopt a sd F) as E. unfold adopt in E. destruct (slices a); congruence. Qed.

Lemma ninsertr_spec : forall m v a p sd xss, ngood m v a -> fresh m -> (forall t, nomem t = false) ->
  nlegal a (NInsertRange p sd xss) ->
  npost (NInsertRange p sd xss) m v a (nexec fails nomem half (NInsertRange p sd xss) v m).
Proof.
  intros m v a p sd xss G F NM L. inversion L as [| | |? ? ? Hp Lsd Lx Z | | | | | | | | | ]; subst. cbn [nexec].
  destruct xss as [|xs xss].
  - unfold ninsert_range. destruct v as [r ds]. pose proof G as (W & Gr & D). cbn [descs nraw] in *. subst ds.
    rewrite top_init. destruct (Nat.ltb_spec (length (slices a)) p); [lia|]. cbn [map length Nat.eqb iter npost nresult returned].
    exists a. split; auto. split; auto. apply nafter_refl; auto.
  - pose proof (ninsert_range_spec m v a p sd (xs :: xss) G F NM Hp Lsd Lx Z ltac:(discriminate)) as P.
    destruct (ninsert_range fails nomem half v p sd (map (map Ext) (xs :: xss)) m) as [[v' it] m'|[v' it] m'|]; auto;
      cbn [iter npost nresult returned ins_post length Nat.eqb] in *.
    + destruct P as (Ef & A & ->). rewrite Ef, (fits_adopt a sd Ef). eexists. split; [reflexivity|]. split; auto.
    + destruct P as [(Ef & -> & ->)|(Ef & T & l & A & H)].
      * exists a. rewrite Ef. split; auto. apply nafter_refl; auto.
      * exists (Arr sd l). split; auto. right. split; auto. split; [intros; apply (sub_of_fits a sd Ef); auto|].
        split; auto. right. cbn [nresult length Nat.eqb]. rewrite Ef. eexists; split; [reflexivity|]. exact H.
Qed.
Lemma ninsert_spec : forall m v a p n sd xs, ngood m v a -> fresh m -> (forall t, nomem t = false) ->
  nlegal a (NInsert p n sd xs) ->
  npost (NInsert p n sd xs) m v a (nexec fails nomem half (NInsert p n sd xs) v m).
Proof.
  intros m v a p n sd xs G F NM L. inversion L as [| |? ? ? ? Hp Lsd Lx Z | | | | | | | | | | ]; subst.
  pose proof (ninsertr_spec m v a p sd (repeat xs n) G F NM) as P.
  assert (L' : nlegal a (NInsertRange p sd (repeat xs n))) by (constructor; auto; apply Forall_repeat; auto).
  specialize (P L'). cbn [nexec] in *. rewrite ninsert_range_of by (rewrite map_length, product_vol; auto).
  replace (repeat (map Ext xs) n) with (map (map (@Ext V)) (repeat xs n)).
  2:{ clear. induction n; simpl; f_equal; auto. }
  destruct (iter (ninsert_range fails nomem half v p sd (map (map Ext) (repeat xs n)) m)) as [[v' it] m'|[v' it] m'|]; auto;
    cbn [npost] in *; unfold ndamaged in *; cbn [nresult returned] in *; rewrite repeat_length in P; exact P.
Qed.

(* ---- erase ---- *)
Lemma nerase__spec : forall m v a p n, ngood m v a -> fresh m -> 0 < n -> p + n <= length (slices a) ->
  match nerase_ fails v p n (element_size v) m with
  | Ok (v', it) m' => nafter m v m' v' (Arr (sub a) (erase_at p n (slices a))) /\ it = p * vol (sub a)
  | Exc (v', _) m' => throws /\ exists l, nafter m v m' v' (Arr (sub a) l) /\ prefix l (erase_at p n (slices a)) /\ p <= length l
  | Bad => False
  end.
Proof.
  intros m [r ds] a p n G F Hn Hp. pose proof G as ((W1 & W2 & W3) & Gr & D). cbn [descs nraw] in *. subst ds.
  unfold nerase_. rewrite esize_init, total_init, top_init by auto. cbn [nraw].
  assert (NE : slices a <> []) by (destruct (slices a); [simpl in *; lia|discriminate]).
  pose proof (W2 NE) as Z. pose proof (concat_len _ _ W1) as FL. fold (flat a) in FL. rewrite <- FL.
  set (k := vol (sub a)) in *.
  assert (WF : forall l : list (list V), Forall (fun s => length s = k) l -> nwf (Arr (sub a) l)).
  { intros l Hl. split; [|split]; cbn [sub slices]; auto. }
  clearbody k.
  pose proof (erase_spec fails m r (flat a) (p * k) n k Gr F Hn ltac:(lia) ltac:(nia)) as E.
  assert (EC : firstn (p * k) (flat a) ++ skipn (p * k + n * k) (flat a) = concat (erase_at p n (slices a))).
  { symmetry. apply erase_concat; auto. }
  rewrite EC in E. 
  assert (Le : length (erase_at p n (slices a)) = length (slices a) - n).
  { unfold erase_at. rewrite app_length, firstn_length, skipn_length. lia. }
  destruct (raw_erase fails r (length (flat a)) (p * k) n k m) as [[r' vc] m1|[r' vc] m1|]; auto.
  - destruct E as [A ->]. rewrite set_init by auto. split; auto. split; [|split]; auto.
    + apply WF, Forall_erase; auto.
    + cbn [descs sub slices]. rewrite Le; auto.
  - destruct E as (-> & T & V1 & V2 & A). split; auto. rewrite set_init by auto.
    assert (Hv1 : p <= vc) by nia. assert (Hv2 : vc < length (slices a) - n) by nia.
    exists (firstn vc (erase_at p n (slices a))). rewrite firstn_length. split; [|split; [apply prefix_firstn|lia]].
    split; [|split].
    + apply WF, Forall_firstn, Forall_erase; auto.
    + cbn [nraw]. unfold flat; cbn [slices]. rewrite <- (firstn_concat k) by (apply Forall_erase; auto). exact A.
    + cbn [descs sub slices]. rewrite firstn_length, Nat.min_l by lia. auto.
Qed.
Lemma nerase_spec : forall m v a p, ngood m v a -> fresh m -> nlegal a (NErase p) ->
  npost (NErase p) m v a (nexec fails nomem half (NErase p) v m).
Proof.
  intros m [r ds] a p G F L. inversion L as [| | | |? Hp | | | | | | | | ]; subst. cbn [nexec]. unfold nerase.
  assert (D : ds = init_sizes (length (slices a) :: sub a)) by apply G. subst ds. rewrite top_init.
  destruct (Nat.ltb_spec (length (slices a)) p); [destruct Hp as [|[-> _]]; lia|].
  destruct (Nat.eqb_spec (length (slices a)) 0) as [E0|E0].
  - cbn [iter npost nresult]. exists a. split; [apply nafter_refl; auto|]. left. destruct (slices a); [auto|discriminate].
  - destruct Hp as [Hp|[-> E]]; [|rewrite E in E0; simpl in E0; lia].
    pose proof (nerase__spec m (NVec r (init_sizes (length (slices a) :: sub a))) a p 1 G F ltac:(lia) ltac:(lia)) as P.
    destruct (nerase_ fails _ p 1 _ m) as [[v' it] m'|[v' it] m'|]; auto; cbn [iter npost nresult returned].
    + destruct P as [A ->]. destruct (slices a) eqn:Es; [simpl in E0; lia|]. eexists; split; [reflexivity|]. split; auto.
    + destruct P as (T & l & A & Pr & Hl). exists (Arr (sub a) l). split; auto. right. split; auto.
      split; auto. split; auto. right. cbn [nresult]. destruct (slices a) eqn:Es; [simpl in E0; lia|].
      eexists; split; [reflexivity|]. auto.
Qed.
Lemma nerase_range_spec : forall m v a p q, ngood m v a -> fresh m -> nlegal a (NEraseRange p q) ->
  npost (NEraseRange p q) m v a (nexec fails nomem half (NEraseRange p q) v m).
Proof.
  intros m [r ds] a p q G F L. inversion L as [| | | | |? ? Hp Hq Z | | | | | | | ]; subst. cbn [nexec]. unfold nerase_range.
  assert (D : ds = init_sizes (length (slices a) :: sub a)) by apply G. subst ds.
  assert (W3 : sub a <> []) by (destruct G as ((_ & _ & W3) & _); auto).
  rewrite top_init. rewrite (esize_init r _ _ W3) at 1.
  destruct (Nat.ltb_spec (length (slices a)) p); [lia|]. destruct (Nat.ltb_spec (length (slices a)) q); [lia|].
  destruct (Nat.eqb_spec (vol (sub a)) 0); [lia|]. cbn [orb].
  destruct (Nat.ltb_spec q p) as [Hlt|Hle].
  { cbn [iter npost nresult]. exists a. split; [apply nafter_refl; auto|]. left. destruct (Nat.ltb_spec q p); [auto|lia]. }
  destruct (Nat.eqb_spec p q) as [->|NE].
  { cbn [iter npost nresult returned]. exists a. destruct (Nat.ltb_spec q q); [lia|]. rewrite Nat.sub_diag, Nat.eqb_refl.
    split; [|split; [apply nafter_refl; auto|auto]]. unfold erase_at. rewrite Nat.add_0_r, firstn_skipn. destruct a; auto. }
  destruct (Nat.ltb_spec (length (slices a)) (q - p)); [lia|].
  pose proof (nerase__spec m (NVec r (init_sizes (length (slices a) :: sub a))) a p (q - p) G F ltac:(lia) ltac:(lia)) as P.
  destruct (nerase_ fails _ p (q - p) _ m) as [[v' it] m'|[v' it] m'|]; auto; cbn [iter npost nresult returned].
  - destruct P as [A ->]. destruct (Nat.ltb_spec q p); [lia|]. destruct (Nat.eqb_spec p q); [lia|].
    eexists; split; [reflexivity|]. split; auto.
  - destruct P as (T & l & A & Pr & Hl). exists (Arr (sub a) l). split; auto. right. split; auto.
    split; auto. split; auto. right. cbn [nresult]. destruct (Nat.ltb_spec q p); [lia|].
    eexists; split; [reflexivity|]. auto.
Qed.

(* ---- resize, assign ---- *)
Lemma reads_one : forall (m : mem) x, reads m (Ext x) x. Proof. reflexivity. Qed.
Lemma nresize_spec : forall m v a n x, ngood m v a -> fresh m -> nlegal a (NResize n x) ->
  npost (NResize n x) m v a (nexec fails nomem half (NResize n x) v m).
Proof.
  intros m [r ds] a n x G F L. inversion L as [| | | | | |? ? Hn | | | | | | ]; subst. cbn [nexec]. unfold nresize.
  pose proof G as ((W1 & W2 & W3) & Gr & D). cbn [descs nraw] in *. subst ds.
  rewrite total_init, esize_init by auto. cbn [nraw].
  pose proof (concat_len _ _ W1) as FL. fold (flat a) in FL. rewrite <- FL.
  pose proof (resize_spec fails nomem half m r (flat a) (n * vol (sub a)) (Ext x) x Gr F (reads_one m x)) as P.
  destruct (raw_resize fails nomem half r (length (flat a)) (n * vol (sub a)) (Ext x) m) as [r' m1|r' m1|]; auto;
    cbn [plain npost nresult returned].
  - destruct P as [A _]. rewrite set_init by auto. eexists. split; [reflexivity|]. split; auto.
    set (k := vol (sub a)) in *. split; [|split].
    + split; [|split]; cbn [sub slices]; auto.
      * fold k. apply Forall_app. split; [apply Forall_firstn; auto|]. apply Forall_repeat. apply repeat_length.
      * intros H. destruct Hn as [->|]; auto.
    + cbn [nraw]. unfold flat at 1; cbn [slices]. rewrite concat_app, concat_repeat, <- (firstn_concat k) by auto.
      rewrite Nat.mul_sub_distr_r. rewrite FL in A. exact A.
    + cbn [descs sub slices]. rewrite app_length, firstn_length, repeat_length. do 2 f_equal. lia.
  - destruct P as (A & -> & T). exists a. split; [split; [split; auto|split; auto]|]. right. split; auto.
    destruct a as [sd sl]. apply damaged_same; auto.
Qed.
Lemma shaped : forall n r (xs : list V), r <> [] -> n = 0 \/ vol r <> 0 -> length xs = n * vol r ->
  nwf (shape_of (n :: r) xs) /\ flat (shape_of (n :: r) xs) = xs /\ length (slices (shape_of (n :: r) xs)) = n.
Proof.
  intros n r xs Hr H L. cbn [shape_of]. split; [|split].
  - split; [|split]; cbn [sub slices]; auto.
    + apply pieces_wf; auto.
    + intros NE. destruct H as [->|]; auto.
  - apply pieces_concat; auto.
  - apply pieces_len.
Qed.
Lemma nresize_all_spec : forall m v a e x, ngood m v a -> fresh m -> nlegal a (NResizeAll e x) ->
  npost (NResizeAll e x) m v a (nexec fails nomem half (NResizeAll e x) v m).
Proof.
  intros m [r ds] a e x G F L. inversion L as [| | | | | | |n rr ? Lr Hn | | | | | ]; subst. cbn [nexec]. unfold nresize_all.
  pose proof G as ((W1 & W2 & W3) & Gr & D). cbn [descs nraw] in *. subst ds. rewrite total_init. cbn [nraw].
  rewrite (product_vol (n :: rr)).
  pose proof (concat_len _ _ W1) as FL. fold (flat a) in FL. rewrite <- FL.
  assert (RN : rr <> []) by (destruct rr; [|discriminate]; destruct (sub a); [congruence|discriminate]).
  pose proof (resize_spec fails nomem half m r (flat a) (vol (n :: rr)) (Ext x) x Gr F (reads_one m x)) as P.
  destruct (raw_resize fails nomem half r (length (flat a)) (vol (n :: rr)) (Ext x) m) as [r' m1|r' m1|]; auto;
    cbn [plain npost nresult returned].
  - destruct P as [A _]. eexists. split; [reflexivity|]. split; auto.
    destruct (shaped n rr (firstn (vol (n :: rr)) (flat a) ++ repeat x (vol (n :: rr) - length (flat a))) RN Hn) as (S1 & S2 & S3).
    { rewrite app_length, firstn_length, repeat_length. cbn [vol]. lia. }
    split; auto. split; [cbn [nraw]; rewrite S2; auto|]. rewrite S3. reflexivity.
  - destruct P as (A & -> & T). exists a. split; [split; [split; auto|split; auto]|]. right. split; auto.
    destruct a as [sd sl]. apply damaged_same; auto.
Qed.
Lemma nassign_spec : forall m v a e x, ngood m v a -> fresh m -> nlegal a (NAssign e x) ->
  npost (NAssign e x) m v a (nexec fails nomem half (NAssign e x) v m).
Proof.
  intros m [r ds] a e x G F L. inversion L as [| | | | | | | |n rr ? Lr Hn | | | | ]; subst. cbn [nexec]. unfold nassign.
  pose proof G as ((W1 & W2 & W3) & Gr & D). cbn [descs nraw] in *. subst ds. rewrite total_init. cbn [nraw].
  rewrite (product_vol (n :: rr)).
  pose proof (concat_len _ _ W1) as FL. fold (flat a) in FL. rewrite <- FL.
  assert (RN : rr <> []) by (destruct rr; [|discriminate]; destruct (sub a); [congruence|discriminate]).
  pose proof (assign_spec fails nomem half m r (flat a) (vol (n :: rr)) (Ext x) x Gr F (reads_one m x)) as P.
  specialize (P ltac:(intros _ b i H; discriminate)).
  destruct (raw_assign fails nomem half r (length (flat a)) (vol (n :: rr)) (Ext x) m) as [[r' ?] m1|[r' va] m1|]; auto;
    cbn [plain npost nresult returned].
  - eexists. split; [reflexivity|]. split; auto.
    destruct (shaped n rr (repeat x (vol (n :: rr))) RN Hn) as (S1 & S2 & S3).
    { rewrite repeat_length. reflexivity. }
    split; auto. split; [cbn [nraw]; rewrite S2; auto|]. rewrite S3. reflexivity.
  - destruct P as (A & -> & T & _). destruct va.
    + exists a. split; [split; [split; auto|split; auto]|]. right. split; auto.
      destruct a as [sd sl]. apply damaged_same; auto.
    + rewrite set_init by auto. exists (Arr (sub a) []). split.
      * split; [split; [constructor|split; cbn [slices sub]; auto; congruence]|]. split; auto.
      * right. split; auto. split; auto. split; auto. right. eexists; split; [reflexivity|]. auto.
Qed.

(* ---- clear, reserve, shrink_to_fit, copy ---- *)
Lemma as_vec : forall m r a, ngood m (NVec r (init_sizes (length (slices a) :: sub a))) a ->
  vgood m (Vec r (total_size (NVec r (init_sizes (length (slices a) :: sub a))))) (flat a).
Proof. intros m r a (W & G & _). split; auto. cbn [vsize]. rewrite total_init, flat_len; auto. Qed.
Lemma nclear_spec : forall m v a, ngood m v a -> fresh m ->
  npost NClear m v a (nexec fails nomem half NClear v m).
Proof.
  intros m [r ds] a G F. cbn [nexec]. assert (D : ds = init_sizes (length (slices a) :: sub a)) by apply G. subst ds.
  pose proof (as_vec m r a G) as VG. unfold nclear. cbn [nraw].
  destruct (destroy_all_spec m _ _ VG F) as (m' & E & A). unfold destroy_all in E; cbn [vraw vsize] in E.
  pose proof G as ((W1 & W2 & W3) & _). rewrite set_init by auto.
  assert (FIN : forall m', after m r m' r [] -> npost NClear m (NVec r (init_sizes (length (slices a) :: sub a))) a
            (plain (Ok (NVec r (init_sizes (0 :: sub a))) m'))).
  { intros mm AA. cbn [plain npost nresult returned]. eexists. split; [reflexivity|]. split; auto.
    split; [split; [constructor|split; cbn [slices sub]; auto; congruence]|]. split; auto. }
  destruct (total_size (NVec r (init_sizes (length (slices a) :: sub a))) =? 0).
  - injection E as <-. apply FIN; auto.
  - destruct (ptr r); [|discriminate]. rewrite E. cbn [andthen]. apply FIN; auto.
Qed.
Lemma nafter_raw : forall m r m1 r' a, ngood m (NVec r (init_sizes (length (slices a) :: sub a))) a ->
  after m r m1 r' (flat a) -> nafter m (NVec r (init_sizes (length (slices a) :: sub a))) m1 (NVec r' (init_sizes (length (slices a) :: sub a))) a.
Proof. intros m r m1 r' a (W & _) A. split; auto. Qed.
Lemma nreserve_spec : forall m v a n, ngood m v a -> fresh m ->
  npost (NReserve n) m v a (nexec fails nomem half (NReserve n) v m).
Proof.
  intros m [r ds] a n G F. cbn [nexec]. assert (D : ds = init_sizes (length (slices a) :: sub a)) by apply G. subst ds.
  pose proof (reserve_spec_v fails nomem m _ _ n (as_vec m r a G) F) as P. unfold reserve in P; cbn [vraw vsize] in P.
  unfold nreserve. cbn [nraw descs].
  destruct (raw_reserve fails nomem r (total_size (NVec r (init_sizes (length (slices a) :: sub a)))) n m) as [r' m1|r' m1|]; auto; cbn [plain npost nresult returned].
  - exists a. split; auto. split; auto. apply nafter_raw; auto. apply P.
  - exists a. destruct P as [[A _] T]. cbn [vraw] in A. split; [apply nafter_raw; auto|]. right. split; auto.
    destruct a as [sd sl]. apply damaged_same; auto.
Qed.
Lemma nshrink_spec : forall m v a, ngood m v a -> fresh m ->
  npost NShrink m v a (nexec fails nomem half NShrink v m).
Proof.
  intros m [r ds] a G F. cbn [nexec]. assert (D : ds = init_sizes (length (slices a) :: sub a)) by apply G. subst ds.
  pose proof (shrink_spec_v fails nomem m _ _ (as_vec m r a G) F) as P. unfold shrink_to_fit in P; cbn [vraw vsize] in P.
  unfold nshrink. cbn [nraw descs].
  destruct (raw_shrink fails nomem r (total_size (NVec r (init_sizes (length (slices a) :: sub a)))) m) as [r' m1|r' m1|]; auto; cbn [plain npost nresult returned].
  - exists a. split; auto. split; auto. apply nafter_raw; auto. apply P.
  - exists a. destruct P as [[A _] T]. cbn [vraw] in A. split; [apply nafter_raw; auto|]. right. split; auto.
    destruct a as [sd sl]. apply damaged_same; auto.
Qed.
Lemma ncopy_spec : forall m v a, ngood m v a -> fresh m ->
  npost NCopy m v a (nexec fails nomem half NCopy v m).
Proof.
  intros m [r ds] a G F. cbn [nexec]. assert (D : ds = init_sizes (length (slices a) :: sub a)) by apply G. subst ds.
  pose proof (as_vec m r a G) as VG. unfold ncopy, ndestruct. cbn [nraw descs].
  destruct (Nat.eqb_spec (total_size (NVec r (init_sizes (length (slices a) :: sub a)))) 0) as [E0|E0].
  - destruct (destruct_vec_spec m _ _ VG F) as (m' & E & Fr & F'). rewrite E; cbn [andthen plain npost nresult returned].
    exists a. split; auto. split; auto. apply nafter_raw; auto.
    rewrite total_init in E0. apply empty_iff in E0; [|apply G]. split; [|split; auto].
    unfold good; cbn [ptr cap]. unfold flat. rewrite E0. auto.
  - pose proof (copy_assign_spec fails nomem m _ _ _ _ VG VG F) as P. unfold copy_assign in P.
    destruct (copy_construct fails nomem _ m) as [t m1|t m1|]; auto.
    + destruct (destruct_vec _ m1) as [u m2|u m2|]; auto. cbn [andthen] in *. cbn [plain npost nresult returned].
      exists a. split; auto. split; auto. apply nafter_raw; auto. apply P.
    + cbn [plain npost nresult returned]. exists a. destruct P as [[A _] T]. cbn [vraw] in A.
      split; [apply nafter_raw; auto|]. right. split; auto. destruct a as [sd sl]. apply damaged_same; auto.
Qed.

Theorem nexec_spec : forall op m v a, ngood m v a -> fresh m -> nlegal a op -> (ninserts op -> forall t, nomem t = false) ->
  npost op m v a (nexec fails nomem half op v m).
Proof.
  intros op m v a G F L NI. destruct op.
  - apply npush_spec; auto.
  - apply npop_spec; auto.
  - apply ninsert_spec; auto. apply NI; exact I.
  - apply ninsertr_spec; auto. apply NI; exact I.
  - apply nerase_spec; auto.
  - apply nerase_range_spec; auto.
  - apply nresize_spec; auto.
  - apply nresize_all_spec; auto.
  - apply nassign_spec; auto.
  - apply nclear_spec; auto.
  - apply nreserve_spec; auto.
  - apply nshrink_spec; auto.
  - apply ncopy_spec; auto.
Qed.
End Proofs.
