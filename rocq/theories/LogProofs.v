From Coq Require Import String Ascii List Bool Arith ZArith Lia.
From Verif Require Import LogModel LogSpec.
Import ListNotations.

Definition fill (l : list nat) : buffer := map Some l.
Lemma put_at : forall pre x rest c, put (fill pre ++ x :: rest) (length pre) c = LOk (fill (pre ++ [c]) ++ rest).
Proof.
  intros pre x rest c. unfold put, fill. rewrite app_length, map_length. cbn [length].
  destruct (Nat.ltb_spec (length pre) (length pre + S (length rest))); [|lia].
  rewrite firstn_app, map_length, Nat.sub_diag, <- (map_length Some pre), firstn_all, app_nil_r.
  rewrite skipn_app, map_length. replace (S (length pre) - length pre) with 1 by lia.
  rewrite skipn_all2 by (rewrite map_length; lia). cbn [skipn app]. rewrite map_app, <- app_assoc. reflexivity.
Qed.
Lemma put_all_at : forall cs pre rest, length cs <= length rest ->
  put_all (fill pre ++ rest) (length pre) cs = LOk (fill (pre ++ cs) ++ skipn (length cs) rest).
Proof.
  induction cs as [|c cs IH]; intros pre rest H; cbn [put_all length skipn].
  - rewrite app_nil_r. reflexivity.
  - destruct rest as [|x rest]; [inversion H|]. rewrite put_at. cbn [lbind].
    replace (S (length pre)) with (length (pre ++ [c])) by (rewrite app_length; cbn; lia).
    rewrite IH by (cbn in H; lia). rewrite <- app_assoc. reflexivity.
Qed.
Lemma fetch_last : forall body rest, body <> [] -> fetch (fill body ++ rest) (length body - 1) = LOk (last body 0).
Proof.
  intros body rest H. unfold fetch, fill.
  destruct (exists_last H) as [b [c E]]. subst body. rewrite app_length. cbn [length]. replace (length b + 1 - 1) with (length b) by lia.
  rewrite map_app, <- app_assoc. rewrite nth_error_app2 by (rewrite map_length; lia). rewrite map_length, Nat.sub_diag. cbn.
  rewrite last_last. reflexivity.
Qed.
Lemma print_at : forall body rest, print (fill (body ++ [0]) ++ rest) = LOk (visible body).
Proof.
  induction body as [|c body IH]; intros rest; [reflexivity|]. cbn [app fill map print visible].
  destruct c as [|c]; [reflexivity|]. unfold fill in IH. rewrite IH. reflexivity.
Qed.

Definition head (g : logger) (l : level) : list nat :=
  match tag l with Some t => t | None => [] end ++ c_str (name g) ++ chars " - ".
Lemma snprintf_at : forall pre rest size text, (Z.of_nat (length text) <= INT_MAX)%Z -> 1 <= size -> size <= length rest ->
  exists rest', snprintf (fill pre ++ rest) (length pre) size text =
    LOk (fill (pre ++ firstn (size - 1) text ++ [0]) ++ rest', length text) /\
    length rest' + length (firstn (size - 1) text) + 1 = length rest.
Proof.
  intros pre rest size text H S1 R. unfold snprintf.
  destruct (Z.ltb_spec INT_MAX (Z.of_nat (length text))) as [?|_]; [lia|]. destruct size as [|k]; [lia|].
  pose proof (firstn_le_length k text) as F.
  assert (F' : length (firstn k text) <= k) by (rewrite firstn_length; lia).
  rewrite put_all_at by (rewrite app_length; cbn [length]; lia). cbn [lbind]. replace (S k - 1) with k by lia.
  eexists. split; [reflexivity|]. rewrite skipn_length, app_length. cbn [length]. lia.
Qed.
Local Opaque MESSAGE_LENGTH INT_MAX.
Lemma written : forall g l text, l <> Silent -> rank l <= rank (filter g) ->
  (Z.of_nat (length (head g l)) + Z.of_nat (length text) <= INT_MAX)%Z -> 2 <= MESSAGE_LENGTH ->
  format_and_write g l text = LOk (Some (visible (line (firstn (MESSAGE_LENGTH - 1) (head g l ++ text))))).
Proof.
  intros g l text NS R B L. unfold format_and_write.
  destruct (Nat.leb_spec (rank l) (rank (filter g))) as [_|?]; [|lia].
  unfold head in *. destruct (tag l) as [t|] eqn:T; [|destruct l; discriminate + contradiction].
  set (P := t ++ c_str (name g) ++ chars " - ") in *.
  assert (PN : P <> []). { unfold P. intros E. apply app_eq_nil in E as [_ E]. apply app_eq_nil in E as [_ E]. discriminate. }
  set (L' := MESSAGE_LENGTH) in *.
  destruct (snprintf_at [] (repeat None (L' + 1)) L' P) as (r1 & E1 & N1); [lia|lia|rewrite repeat_length; lia|].
  cbn [fill map app length] in E1. rewrite E1. cbn [lbind]. clear E1. rewrite repeat_length in N1.
  assert (M1 : Nat.min (length P) (L' - 1) = length (firstn (L' - 1) P)) by (rewrite firstn_length; lia).
  rewrite M1. set (pre := firstn (L' - 1) P) in *.
  assert (LP : length pre <= L' - 1) by (rewrite <- M1; lia).
  assert (LP' : length pre <= length P) by (rewrite <- M1; lia).
  rewrite map_app, <- app_assoc. cbn [map app].
  destruct (snprintf_at pre (Some 0 :: r1) (L' - length pre) text) as (r2 & E2 & N2); [lia|lia|cbn [length]; lia|].
  unfold fill at 1 in E2. rewrite E2. cbn [lbind]. clear E2.
  destruct (Z.ltb_spec INT_MAX (Z.of_nat (length pre + length text))) as [?|_]; [lia|].
  assert (BODY : pre ++ firstn (L' - length pre - 1) text = firstn (L' - 1) (P ++ text)).
  { rewrite firstn_app. fold pre. f_equal. f_equal. lia. }
  rewrite app_assoc, BODY. set (body := firstn (L' - 1) (P ++ text)) in *.
  assert (M2 : Nat.min (length pre + length text) (L' - 1) = length body).
  { unfold body. rewrite firstn_length, app_length. lia. }
  rewrite M2. assert (BN : body <> []).
  { intros E. apply (f_equal (@length nat)) in E. unfold body in E. rewrite firstn_length, app_length in E. cbn in E.
    destruct P; [contradiction|]. cbn in E. lia. }
  assert (LB : length body <= L' - 1) by (rewrite <- M2; lia).
  assert (N3 : length r2 + length body = L' ).
  { apply (f_equal (@length nat)) in BODY. rewrite app_length in BODY. cbn [length] in N2. lia. }
  destruct (length body) as [|last0] eqn:LL; [destruct body; [contradiction|discriminate]|].
  unfold fill. rewrite map_app, <- app_assoc. fold (fill body).
  match goal with |- context [fetch ?b last0] => assert (FL : fetch b last0 = LOk (last body 0)) end.
  { replace last0 with (length body - 1) by lia. apply fetch_last. exact BN. }
  rewrite FL. cbn [lbind]. unfold line.
  destruct (last body 0 =? 10).
  - cbn [lbind]. rewrite app_assoc. unfold fill. rewrite <- map_app. fold (fill (body ++ [0])). rewrite print_at. reflexivity.
  - cbn [map app]. rewrite <- LL, put_at. cbn [lbind]. destruct r2 as [|x r2]; [cbn in N3; lia|].
    replace (length body + 1) with (length (body ++ [10])) by (rewrite app_length; reflexivity).
    rewrite put_at. cbn [lbind]. rewrite print_at. reflexivity.
Qed.
Lemma visible_all : forall t, ~ In 0 t -> visible t = t.
Proof.
  induction t as [|c t IH]; intros H; [reflexivity|]. cbn [visible]. destruct (Nat.eqb_spec c 0) as [->|_].
  - destruct H. left. reflexivity.
  - rewrite IH; [reflexivity|]. intros I. apply H. right. exact I.
Qed.
Lemma c_str_visible : forall s, c_str s = visible s.
Proof. induction s as [|[|c] s IH]; cbn; [reflexivity|reflexivity|]. rewrite IH. reflexivity. Qed.
Lemma visible_no0 : forall s, ~ In 0 (visible s).
Proof.
  induction s as [|c s IH]; cbn [visible]; [auto|]. destruct (Nat.eqb_spec c 0) as [|N]; [auto|]. intros [->|I]; auto.
Qed.
Lemma head_no0 : forall g l, ~ In 0 (head g l).
Proof.
  intros g l H. unfold head in H. rewrite c_str_visible in H. rewrite !in_app_iff in H. destruct H as [H|[H|H]].
  - destruct l; cbn in H; intuition discriminate.
  - exact (visible_no0 _ H).
  - cbn in H. intuition discriminate.
Qed.
Lemma head_heading : forall g c, head g (level_of c) = heading c (name g).
Proof. intros g c. unfold head, heading. rewrite c_str_visible. destruct c; reflexivity. Qed.
Lemma text_shown : forall w, text_of w = shown w.
Proof. intros []; cbn; [reflexivity|apply c_str_visible]. Qed.
Local Transparent MESSAGE_LENGTH INT_MAX.
Lemma log_is : forall debug g c w, admits debug (filter g) c = true ->
  log debug g c w = format_and_write g (level_of c) (text_of w) /\ rank (level_of c) <= rank (filter g).
Proof. intros debug g c w H. destruct debug, (filter g), c; cbn in *; try discriminate; split; auto with arith; lia. Qed.
Lemma log_line : forall debug g c w, admits debug (filter g) c = true ->
  (Z.of_nat (length (heading c (name g))) + Z.of_nat (length (shown w)) <= 2147483647)%Z ->
  log debug g c w = LOk (Some (visible (line (firstn 2047 (heading c (name g) ++ shown w))))).
Proof.
  intros debug g c w A B. destruct (log_is debug g c w A) as [-> R].
  assert (NS : level_of c <> Silent) by (destruct c; discriminate).
  assert (L : 2 <= MESSAGE_LENGTH) by (apply Nat.leb_le; reflexivity).
  pose proof (written g (level_of c) (text_of w) NS R) as W. rewrite head_heading, text_shown in *.
  exact (W B L).
Qed.
Lemma heading_no0 : forall c n, ~ In 0 (heading c n).
Proof. intros c n. change n with (name (Logger n Silent)). rewrite <- head_heading. apply head_no0. Qed.
Lemma line_no0 : forall t, ~ In 0 t -> ~ In 0 (line t).
Proof.
  intros t H. unfold line. destruct (last t 0 =? 10); [exact H|]. rewrite in_app_iff. cbn. intros [I|[E|[]]]; [auto|discriminate].
Qed.
Lemma firstn_no0 : forall k (t : list nat), ~ In 0 t -> ~ In 0 (firstn k t).
Proof. intros k t H I. apply H. rewrite <- (firstn_skipn k t). apply in_or_app. left. exact I. Qed.
Lemma log_whole : forall debug g c w, admits debug (filter g) c = true ->
  length (heading c (name g)) + length (shown w) <= 2047 -> ~ In 0 (shown w) ->
  log debug g c w = LOk (Some (line (heading c (name g) ++ shown w))).
Proof.
  intros debug g c w A B N. rewrite log_line; [|exact A|lia]. rewrite firstn_all2 by (rewrite app_length; exact B).
  rewrite visible_all; [reflexivity|]. apply line_no0. rewrite in_app_iff. intros [I|I]; [exact (heading_no0 _ _ I)|auto].
Qed.
Lemma log_filtered : forall debug g c w, admits debug (filter g) c = false -> log debug g c w = LOk None.
Proof.
  intros debug g c w H.
  assert (O : forall l t, rank (filter g) < rank l -> format_and_write g l t = LOk None).
  { intros l t R. unfold format_and_write. destruct (Nat.leb_spec (rank l) (rank (filter g))); [lia|reflexivity]. }
  unfold log. destruct debug, (filter g), c; cbn [admits] in H; try discriminate; try reflexivity; apply O; cbn [rank level_of]; lia.
Qed.
Lemma visible_short : forall t, length (visible t) <= length t.
Proof. induction t as [|c t IH]; cbn; [lia|]. destruct (c =? 0); cbn; lia. Qed.
Lemma line_ends : forall t, exists r, line t = r ++ [10].
Proof.
  intros t. unfold line. destruct (Nat.eqb_spec (last t 0) 10) as [E|_]; [|exists t; reflexivity].
  destruct t as [|a t]; [discriminate|]. destruct (@exists_last _ (a :: t)) as [r [x X]]; [discriminate|].
  rewrite X in *. rewrite last_last in E. subst. exists r. reflexivity.
Qed.
Lemma line_length : forall t, length (line t) <= S (length t).
Proof. intros t. unfold line. destruct (last t 0 =? 10); [lia|]. rewrite app_length. cbn. lia. Qed.
Lemma log_ends : forall debug g c w s,
  (Z.of_nat (length (heading c (name g))) + Z.of_nat (length (shown w)) <= 2147483647)%Z ->
  log debug g c w = LOk (Some s) -> length s <= 2048 /\ (~ In 0 (shown w) -> exists t, s = t ++ [10]).
Proof.
  intros debug g c w s B H. destruct (admits debug (filter g) c) eqn:A; [|rewrite (log_filtered _ _ _ _ A) in H; discriminate].
  rewrite (log_line _ _ _ _ A B) in H. assert (E : s = visible (line (firstn 2047 (heading c (name g) ++ shown w)))) by congruence.
  clear H. set (t := heading c (name g) ++ shown w) in *. split.
  - rewrite E. etransitivity; [apply visible_short|]. etransitivity; [apply line_length|]. pose proof (firstn_le_length 2047 t) as F. apply le_n_S in F.
    rewrite firstn_length. apply le_n_S. apply Nat.le_min_l.
  - intros N. rewrite E, visible_all; [apply line_ends|]. apply line_no0, firstn_no0. unfold t. rewrite in_app_iff.
    intros [I|I]; [exact (heading_no0 _ _ I)|auto].
Qed.
