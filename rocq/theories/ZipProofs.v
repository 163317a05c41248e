(* Proofs about programs over zip iterators. *)
From Coq Require Import List Bool ZArith Lia.
From Verif Require Import ZipModel ZipSpec.
Import ListNotations.
Local Open Scope Z_scope.

Definition at_row (bases : list Z) (i : Z) : list Z := map (fun b => b + i) bases.
(* every column has the rows *)
Definition fits (n : Z) (sizes bases : list Z) : Prop :=
  bases <> [] /\ 0 <= n /\ Forall2 (fun size b => 0 <= b /\ b + n <= size) sizes bases.

Section Zip.
Context {V : Type}.
Variables (n : Z) (sizes bases : list Z).
Hypothesis F : fits n sizes bases.
Notation k := (length bases).

Lemma at_row_length i : length (at_row bases i) = k.
Proof. apply map_length. Qed.
Lemma at_row_add i d : map (fun p => p + d) (at_row bases i) = at_row bases (i + d).
Proof. unfold at_row. rewrite map_map. apply map_ext. intros b. lia. Qed.
Lemma within_row i : up_to_end n i = true -> all2 within sizes (at_row bases i) = true.
Proof using F.
  destruct F as (_ & Hn & G). clear F. intros U. unfold up_to_end in U. apply andb_true_iff in U as [U1 U2]. apply Z.leb_le in U1, U2.
  induction G as [|size b ss bs [H1 H2] G IH]; [reflexivity|]. cbn [at_row map all2]. fold (at_row bs i). rewrite IH, andb_true_r.
  unfold within. apply andb_true_iff. split; apply Z.leb_le; lia.
Qed.
Lemma inside_row i : on_row n i = true -> all2 inside sizes (at_row bases i) = true.
Proof using F.
  destruct F as (_ & Hn & G). clear F. intros U. unfold on_row in U. apply andb_true_iff in U as [U1 U2]. apply Z.leb_le in U1. apply Z.ltb_lt in U2.
  induction G as [|size b ss bs [H1 H2] G IH]; [reflexivity|]. cbn [at_row map all2]. fold (at_row bs i). rewrite IH, andb_true_r.
  unfold inside. apply andb_true_iff. split; [apply Z.leb_le|apply Z.ltb_lt]; lia.
Qed.
Lemma shift_row i d : up_to_end n (i + d) = true -> shift sizes d (at_row bases i) = Some (at_row bases (i + d)).
Proof using F. intros U. unfold shift. rewrite at_row_add. now rewrite within_row. Qed.
Lemma differ_row i j : any_differ (at_row bases i) (at_row bases j) = negb (i =? j).
Proof using F.
  destruct F as (Nb & _). clear F. induction bases as [|b bs IH]; [congruence|]. cbn [at_row map any_differ].
  destruct bs as [|b' bs].
  - cbn. rewrite orb_false_r. f_equal. destruct (Z.eqb_spec (b + i) (b + j)), (Z.eqb_spec i j); try reflexivity; lia.
  - change (map (fun a => a + i) (b' :: bs)) with (at_row (b' :: bs) i). change (map (fun a => a + j) (b' :: bs)) with (at_row (b' :: bs) j).
    rewrite IH by congruence. destruct (Z.eqb_spec (b + i) (b + j)), (Z.eqb_spec i j); try reflexivity; lia.
Qed.
Lemma less_row i j : all_less (at_row bases i) (at_row bases j) = (i <? j).
Proof using F.
  destruct F as (Nb & _). clear F. unfold all_less. induction bases as [|b bs IH]; [congruence|]. cbn [at_row map all2].
  destruct bs as [|b' bs].
  - cbn. rewrite andb_true_r. destruct (Z.ltb_spec (b + i) (b + j)), (Z.ltb_spec i j); try reflexivity; lia.
  - change (map (fun a => a + i) (b' :: bs)) with (at_row (b' :: bs) i). change (map (fun a => a + j) (b' :: bs)) with (at_row (b' :: bs) j).
    rewrite IH by congruence. destruct (Z.ltb_spec (b + i) (b + j)), (Z.ltb_spec i j); try reflexivity; lia.
Qed.

(* ---- the elements ---- *)
Lemma values_spec (m : mem V) ps : forall c, values c ps m = map (fun d => m (c + d)%nat (nth d ps 0)) (seq 0 (length ps)).
Proof.
  induction ps as [|p ps IH]; intros c; [reflexivity|]. cbn [values length seq map nth]. rewrite Nat.add_0_r. f_equal.
  rewrite IH. rewrite <- seq_shift, map_map. apply map_ext. intros d. f_equal. lia.
Qed.
Lemma store_spec ps : forall vs c (m : mem V), length vs = length ps -> forall d q,
  store_from c ps vs m d q =
    if (Nat.leb c d && Nat.ltb d (c + length ps))%bool && (q =? nth (d - c) ps 0) then nth (d - c) vs (m d q) else m d q.
Proof.
  induction ps as [|p ps IH]; intros [|v vs] c m L d q; try discriminate; cbn [store_from length].
  - destruct (Nat.leb_spec c d), (Nat.ltb_spec d (c + 0)); cbn; try reflexivity. lia.
  - rewrite IH by (cbn in L; lia). unfold put.
    destruct (Nat.leb_spec (S c) d), (Nat.ltb_spec d (S c + length ps)), (Nat.leb_spec c d), (Nat.ltb_spec d (c + S (length ps))); try lia; cbn [andb].
    + replace (d - c)%nat with (S (d - S c)) by lia. cbn [nth]. destruct (Nat.eqb_spec d c); [lia|]. reflexivity.
    + destruct (Nat.eqb_spec d c); [lia|]. reflexivity.
    + assert (d = c) as -> by lia. rewrite Nat.eqb_refl, Nat.sub_diag. reflexivity.
    + destruct (Nat.eqb_spec d c); [lia|]. reflexivity.
Qed.
Lemma copy_spec ps : forall qs c (m : mem V), length qs = length ps -> forall d r,
  copy_from c ps qs m d r =
    if (Nat.leb c d && Nat.ltb d (c + length ps))%bool && (r =? nth (d - c) ps 0) then m d (nth (d - c) qs 0) else m d r.
Proof.
  induction ps as [|p ps IH]; intros [|v vs] c m L d q; try discriminate; cbn [copy_from length].
  - destruct (Nat.leb_spec c d), (Nat.ltb_spec d (c + 0)); cbn; try reflexivity. lia.
  - rewrite IH by (cbn in L; lia). unfold put.
    destruct (Nat.leb_spec (S c) d), (Nat.ltb_spec d (S c + length ps)), (Nat.leb_spec c d), (Nat.ltb_spec d (c + S (length ps))); try lia; cbn [andb].
    + replace (d - c)%nat with (S (d - S c)) by lia. cbn [nth]. destruct (Nat.eqb_spec d c); [lia|]. reflexivity.
    + destruct (Nat.eqb_spec d c); [lia|]. reflexivity.
    + assert (d = c) as -> by lia. rewrite Nat.eqb_refl, Nat.sub_diag. reflexivity.
    + destruct (Nat.eqb_spec d c); [lia|]. reflexivity.
Qed.
Lemma nth_row i d : (d < k)%nat -> nth d (at_row bases i) 0 = nth d bases 0 + i.
Proof.
  intros D. unfold at_row. rewrite (nth_indep _ 0 (0 + i)) by (rewrite map_length; exact D). apply (map_nth (fun b => b + i)).
Qed.

(* the columns hold the table *)
Definition holds (t : table V) (m : mem V) : Prop :=
  forall i c, on_row n i = true -> (c < k)%nat -> m c (nth c bases 0 + i) = t i c.
Definition elsewhere (c : nat) (p : Z) : Prop := (k <= c)%nat \/ p < nth c bases 0 \/ nth c bases 0 + n <= p.
Definition agree (s : sheet V) (w : world V) : Prop :=
  (forall x, vars w x = option_map (at_row bases) (rows s x)) /\ holds (cells s) (data w).

Lemma agree_set s w x i : agree s w -> agree (setr s x i) (set w x (at_row bases i)).
Proof. intros [A B]. split; [|exact B]. intros y. unfold set, setr. cbn. destruct (Nat.eqb y x); [reflexivity|apply A]. Qed.
Lemma row_range i : on_row n i = true -> 0 <= i < n.
Proof. unfold on_row. intros U. apply andb_true_iff in U as [U1 U2]. apply Z.leb_le in U1. apply Z.ltb_lt in U2. lia. Qed.
Lemma holds_put t (m m' : mem V) i f : on_row n i = true -> holds t m ->
  (forall d q, m' d q = if Nat.ltb d k && (q =? nth d bases 0 + i) then f d else m d q) ->
  holds (put_row t i f) m' /\ (forall c p, elsewhere c p -> m' c p = m c p).
Proof.
  intros R H E. split.
  - intros j c Rj C. rewrite E. unfold put_row. rewrite (proj2 (Nat.ltb_lt c k) C). cbn [andb].
    destruct (Z.eqb_spec (nth c bases 0 + j) (nth c bases 0 + i)), (Z.eqb_spec j i); try lia; [reflexivity|now apply H].
  - intros c p W. rewrite E. apply row_range in R. destruct (Nat.ltb_spec c k) as [C|C]; [|reflexivity]. cbn [andb].
    destruct (Z.eqb_spec p (nth c bases 0 + i)); [|reflexivity]. exfalso. destruct W as [W|W]; lia.
Qed.

Lemma exec_says debug o s w : agree s w ->
  match says n bases debug o s with
  | None => True
  | Some (_, _, true) => exec sizes debug o w = Stopped
  | Some (x, s', false) => exists w', exec sizes debug o w = Ok x w' /\ agree s' w' /\
      (forall c p, elsewhere c p -> data w' c p = data w c p)
  end.
Proof using F.
  intros G. pose proof G as [GV GD].
  assert (GO : forall x i d keep, up_to_end n (i + d) = true ->
    exists w', moved sizes w x d (at_row bases i) keep = Ok Nothing w' /\
      agree (match keep with Some y => setr (setr s x (i + d)) y i | None => setr s x (i + d) end) w' /\
      (forall c p, elsewhere c p -> data w' c p = data w c p)).
  { intros x i d keep U. unfold moved. rewrite shift_row by exact U. destruct keep as [y|]; eexists; (split; [reflexivity|]); (split; [|reflexivity]).
    - now apply agree_set, agree_set.
    - now apply agree_set. }
  destruct o as [x ps|x y|x y|x y|x|x|y x|y x|x d|x d|y x d|x y|x y|x y|x y|x y|x y|x|x vs|x y]; cbn [exec says]; unfold with2, with1.
  - destruct ps as [|p ps]; [exact I|]. destruct bases as [|b bs] eqn:B; [exact I|]. rewrite <- B in *.
    destruct (up_to_end n (p - b)) eqn:U; [|exact I]. destruct (list_eq_dec Z.eq_dec (p :: ps) (map (fun a => a + (p - b)) bases)) as [E|]; cbn [andb]; [|exact I].
    rewrite E. fold (at_row bases (p - b)). rewrite within_row by exact U. eexists. split; [reflexivity|]. split; [now apply agree_set|reflexivity].
  - rewrite (GV y). destruct (rows s y) as [i|]; cbn [option_map]; [|exact I]. eexists. split; [reflexivity|]. split; [now apply agree_set|reflexivity].
  - rewrite (GV x), (GV y). destruct (rows s x) as [i|]; cbn [option_map]; [|exact I]. destruct (rows s y) as [j|]; cbn [option_map]; [|exact I].
    destruct (debug && Nat.eqb x y); [reflexivity|]. eexists. split; [reflexivity|]. split; [now apply agree_set|reflexivity].
  - rewrite (GV x), (GV y). destruct (rows s x) as [i|]; cbn [option_map]; [|exact I]. destruct (rows s y) as [j|]; cbn [option_map]; [|exact I].
    destruct (debug && Nat.eqb x y); [reflexivity|]. eexists. split; [reflexivity|]. split; [now apply agree_set, agree_set|reflexivity].
  - rewrite (GV x). destruct (rows s x) as [i|]; cbn [option_map]; [|exact I]. destruct (up_to_end n (i + 1)) eqn:U; cbn [option_map]; [|exact I]. exact (GO x i 1 None U).
  - rewrite (GV x). destruct (rows s x) as [i|]; cbn [option_map]; [|exact I]. destruct (up_to_end n (i + -1)) eqn:U; cbn [option_map]; [|exact I]. exact (GO x i (-1) None U).
  - rewrite (GV x). destruct (rows s x) as [i|]; cbn [option_map]; [|exact I]. destruct (up_to_end n (i + 1)) eqn:U; cbn [option_map]; [|exact I]. exact (GO x i 1 (Some y) U).
  - rewrite (GV x). destruct (rows s x) as [i|]; cbn [option_map]; [|exact I]. destruct (up_to_end n (i + -1)) eqn:U; cbn [option_map]; [|exact I]. exact (GO x i (-1) (Some y) U).
  - rewrite (GV x). destruct (rows s x) as [i|]; cbn [option_map]; [|exact I]. destruct (up_to_end n (i + d)) eqn:U; cbn [option_map]; [|exact I]. exact (GO x i d None U).
  - rewrite (GV x). destruct (rows s x) as [i|]; cbn [option_map]; [|exact I]. destruct (up_to_end n (i + - d)) eqn:U; cbn [option_map]; [|exact I]. exact (GO x i (- d) None U).
  - rewrite (GV x). destruct (rows s x) as [i|]; cbn [option_map]; [|exact I]. destruct (up_to_end n (i + d)) eqn:U; cbn [option_map]; [|exact I].
    rewrite shift_row by exact U. eexists. split; [reflexivity|]. split; [now apply agree_set|reflexivity].
  - rewrite (GV x), (GV y). destruct (rows s x) as [i|]; cbn [option_map]; [|exact I]. destruct (rows s y) as [j|]; cbn [option_map]; [|exact I].
    destruct F as (Nb & _). destruct bases as [|b bs] eqn:B; [congruence|]. cbn [at_row map]. exists w. split; [|now split].
    do 2 f_equal. lia.
  - rewrite (GV x), (GV y). destruct (rows s x) as [i|]; cbn [option_map]; [|exact I]. destruct (rows s y) as [j|]; cbn [option_map]; [|exact I].
    exists w. rewrite differ_row, negb_involutive. auto.
  - rewrite (GV x), (GV y). destruct (rows s x) as [i|]; cbn [option_map]; [|exact I]. destruct (rows s y) as [j|]; cbn [option_map]; [|exact I].
    exists w. rewrite differ_row. auto.
  - rewrite (GV x), (GV y). destruct (rows s x) as [i|]; cbn [option_map]; [|exact I]. destruct (rows s y) as [j|]; cbn [option_map]; [|exact I].
    exists w. rewrite less_row. auto.
  - rewrite (GV x), (GV y). destruct (rows s x) as [i|]; cbn [option_map]; [|exact I]. destruct (rows s y) as [j|]; cbn [option_map]; [|exact I].
    exists w. rewrite less_row. auto.
  - rewrite (GV x), (GV y). destruct (rows s x) as [i|]; cbn [option_map]; [|exact I]. destruct (rows s y) as [j|]; cbn [option_map]; [|exact I].
    exists w. rewrite less_row, <- Z.leb_antisym. auto.
  - rewrite (GV x). destruct (rows s x) as [i|]; cbn [option_map]; [|exact I]. destruct (on_row n i) eqn:U; [|exact I].
    rewrite inside_row by exact U. exists w. split; [|auto]. do 2 f_equal. rewrite values_spec, at_row_length. apply map_ext_in. intros d D. apply in_seq in D.
    unfold ZipSpec.k in D. cbn [plus] in *. rewrite nth_row by lia. apply GD; [exact U|lia].
  - rewrite (GV x). destruct (rows s x) as [i|]; cbn [option_map]; [|exact I]. destruct (on_row n i) eqn:U; [|exact I].
    destruct (Nat.eqb_spec (length vs) (ZipSpec.k bases)) as [E|]; cbn [andb]; [|exact I].
    rewrite inside_row, at_row_length by exact U. unfold ZipSpec.k in E. rewrite E, Nat.eqb_refl. cbn [andb]. eexists. split; [reflexivity|]. unfold agree. cbn [rows cells vars data].
    destruct (holds_put (cells s) (data w) (store_from 0 (at_row bases i) vs (data w)) i (fun c => nth c vs (cells s i c)) U GD) as [H O].
    { intros d q. rewrite store_spec by (rewrite at_row_length; exact E). rewrite at_row_length, Nat.sub_0_r. cbn [Nat.leb plus andb].
      destruct (Nat.ltb_spec d k) as [D|D]; cbn [andb]; [|reflexivity]. rewrite nth_row by exact D.
      destruct (Z.eqb_spec q (nth d bases 0 + i)) as [->|]; [|reflexivity]. apply nth_indep. lia. }
    auto.
  - rewrite (GV x), (GV y). destruct (rows s x) as [i|]; cbn [option_map]; [|exact I]. destruct (rows s y) as [j|]; cbn [option_map]; [|exact I].
    destruct (on_row n i) eqn:U; cbn [andb]; [|exact I]. destruct (on_row n j) eqn:U'; [|exact I].
    rewrite !inside_row by assumption. cbn [andb]. eexists. split; [reflexivity|]. unfold agree. cbn [rows cells vars data].
    destruct (holds_put (cells s) (data w) (copy_from 0 (at_row bases i) (at_row bases j) (data w)) i (cells s j) U GD) as [H O]; [|auto].
    intros d q. rewrite copy_spec by (now rewrite !at_row_length). rewrite at_row_length, Nat.sub_0_r. cbn [Nat.leb plus andb].
    destruct (Nat.ltb_spec d k) as [D|D]; cbn [andb]; [|reflexivity]. rewrite !nth_row by exact D.
    destruct (Z.eqb_spec q (nth d bases 0 + i)); [|reflexivity]. now apply GD.
Qed.

Lemma run_story debug os : forall s w obs ended t', agree s w -> story n bases debug os s = Some (obs, ended, t') ->
  exists m', run sizes debug os w = Some (obs, ended, m') /\ holds t' m' /\ (forall c p, elsewhere c p -> m' c p = data w c p).
Proof using F.
  induction os as [|o os IH]; intros s w obs ended t' G; cbn [story run].
  - intros [= <- <- <-]. exists (data w). split; [reflexivity|]. split; [apply G|reflexivity].
  - pose proof (exec_says debug o s w G) as X. destruct (says n bases debug o s) as [[[x s'] [|]]|]; [| |discriminate].
    + intros [= <- <- <-]. rewrite X. exists (data w). split; [reflexivity|]. split; [apply G|reflexivity].
    + destruct X as (w' & E & G' & O). rewrite E. destruct (story n bases debug os s') as [[[a b] c]|] eqn:S; cbn; [|discriminate].
      intros [= <- <- <-]. destruct (IH s' w' a b c G' S) as (m' & R & H & O'). rewrite R. exists m'. cbn. split; [reflexivity|]. split; [exact H|].
      intros e p W. rewrite O' by exact W. now apply O.
Qed.
End Zip.
