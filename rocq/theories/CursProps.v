(* C119: programs over token iterators. *)
From Coq Require Import List Bool Arith Lia.
From Verif Require Import TokenModel TokenProofs CursModel CursSpec CursProofs.
Import ListNotations.
Set Default Proof Using "Type".

(* Any program over any number of iterators of one sequence, in either build, sees what
   positions in lists of tokens give, and is ended where they say. *)
Theorem C119_program A (sep : A -> bool) s debug os :
  run A sep s debug os (fun _ => None) = story A sep s debug os (fun _ => None).
Proof. apply run_story. intros x. exact I. Qed.
Print Assumptions C119_program.

(* The tokens are where the segments are, and their text is that of the segments. *)
Definition text {A} (s : list A) (p : nat * nat) : list A := firstn (snd p - fst p) (skipn (fst p) s).
Lemma spans_text {A} (sep : A -> bool) s : forall m b pre, length b <= m -> s = pre ++ b ->
  map (text s) (spans (length pre) (split A sep b)) = split A sep b.
Proof.
  induction m as [|m IH]; intros b pre Hm E.
  - destruct b; [|cbn in Hm; lia]. cbn. unfold text. cbn. rewrite Nat.add_0_r, Nat.sub_diag. reflexivity.
  - rewrite split_move. cbn [spans map]. pose proof (move_len A sep b) as M. f_equal.
    + unfold text. cbn [fst snd]. rewrite E, skipn_app, skipn_all, Nat.sub_diag. cbn [app skipn].
      replace (length pre + length (first_seg A sep b) - length pre) with (length (first_seg A sep b)) by lia.
      rewrite first_len. reflexivity.
    + destruct (move_suffix A sep b) as (p & Eb & _). destruct (move_iterator A sep b) as [|c r] eqn:Mv; [reflexivity|].
      assert (Lp : length (first_seg A sep b) = length p).
      { rewrite first_len, Mv. rewrite Eb, app_length. lia. }
      rewrite Lp. replace (S (length pre + length p)) with (length (pre ++ p ++ [c])) by (rewrite !app_length; cbn; lia).
      apply IH; [cbn [length] in M; lia|]. rewrite E, Eb, <- !app_assoc. reflexivity.
Qed.
Lemma text_nonempty {A} (s : list A) segs : forall k, map (text s) (spans k segs) = segs ->
  map (text s) (filter (wanted A s true) (spans k segs)) = filter (fun x => negb (is_nil A x)) segs.
Proof.
  induction segs as [|x r IH]; intros k E; [reflexivity|]. cbn [spans map] in E.
  pose proof (f_equal (hd []) E) as E1. pose proof (f_equal (@tl _) E) as E2. cbn [hd tl] in E1, E2.
  cbn [spans filter]. unfold wanted at 1. cbn [fst snd].
  replace (k <? k + length x) with (negb (is_nil A x)) by (destruct x; cbn [is_nil negb length]; symmetry; [apply Nat.ltb_ge|apply Nat.ltb_lt]; lia).
  destruct (negb (is_nil A x)); cbn [map]; rewrite (IH _ E2); [now rewrite E1|reflexivity].
Qed.
Fixpoint final {A} (k : nat) (segs : list (list A)) : nat :=
  match segs with [] => k | [x] => k + length x | x :: r => final (S (k + length x)) r end.
Lemma final_ge {A} (segs : list (list A)) : forall k, k <= final k segs.
Proof. induction segs as [|x [|y r] IH]; intros k; cbn [final]; [lia|lia|]. specialize (IH (S (k + length x))). cbn [final] in IH. lia. Qed.
Lemma final_split {A} (sep : A -> bool) b : forall k, final k (split A sep b) = k + length b.
Proof.
  induction b as [|c t IH]; intros k; [reflexivity|]. cbn [split]. pose proof (split_nonnil A sep t) as Nn.
  destruct (sep c).
  - destruct (split A sep t) as [|h r]; [congruence|]. specialize (IH (S k)). cbn [final length] in *. rewrite Nat.add_0_r. lia.
  - destruct (split A sep t) as [|h r]; [congruence|]. specialize (IH (S k)). cbn [final length] in *. destruct r as [|y r]; [lia|].
    replace (S (k + S (length h))) with (S (S k + length h)) by lia. lia.
Qed.
Lemma text_kept {A} (s : list A) segs : forall k, segs <> [] -> final k segs = length s -> map (text s) (spans k segs) = segs ->
  map (text s) (filter (wanted A s false) (spans k segs)) = if is_nil A (last segs []) then removelast segs else segs.
Proof.
  induction segs as [|x r IH]; intros k Nn F E; [congruence|]. cbn [spans map] in E.
  pose proof (f_equal (hd []) E) as E1. pose proof (f_equal (@tl _) E) as E2. cbn [hd tl] in E1, E2.
  cbn [spans filter]. unfold wanted at 1. cbn [fst snd]. destruct r as [|y r].
  - cbn [final] in F. cbn [spans filter last removelast]. destruct x; cbn [length is_nil] in *.
    + rewrite (proj2 (Nat.ltb_ge _ _)) by lia. reflexivity.
    + rewrite (proj2 (Nat.ltb_lt _ _)) by lia. cbn [map]. now rewrite E1.
  - assert (F' : final (S (k + length x)) (y :: r) = length s) by exact F.
    pose proof (final_ge (y :: r) (S (k + length x))) as G. rewrite (proj2 (Nat.ltb_lt _ _)) by lia. cbn [map].
    rewrite (IH _ ltac:(congruence) F' E2), E1. change (last (x :: y :: r) []) with (last (y :: r) []).
    destruct (is_nil A (last (y :: r) [])); reflexivity.
Qed.
Theorem C119_tokens A (sep : A -> bool) s :
  map (text s) (spans 0 (split A sep s)) = split A sep s /\
  map (text s) (all_tokens A sep s true) = nonempty_segments A sep s /\
  map (text s) (all_tokens A sep s false) = segments_but_trailing_empty A sep s.
Proof.
  assert (X : map (text s) (spans 0 (split A sep s)) = split A sep s) by (apply (spans_text sep s (length s) s []); [lia|reflexivity]).
  split; [exact X|]. split.
  - apply text_nonempty. exact X.
  - apply text_kept; [apply split_nonnil|exact (final_split sep s 0)|exact X].
Qed.
Print Assumptions C119_tokens.

(* Iterators of one mode are equal exactly if they have passed the same number of tokens. *)
Theorem C119_equal A (sep : A -> bool) s skip i j :
  i <= length (all_tokens A sep s skip) -> j <= length (all_tokens A sep s skip) ->
  same A s (skipn i (all_tokens A sep s skip)) (skipn j (all_tokens A sep s skip)) = (i =? j).
Proof.
  set (l := all_tokens A sep s skip). intros Hi Hj.
  assert (HERE : forall i, i < length l -> exists p, nth_error l i = Some p /\ here A s (skipn i l) = p /\ p <> (length s, length s)).
  { intros a Ha. destruct (nth_error l a) as [p|] eqn:E; [|apply nth_error_None in E; lia]. exists p. split; [reflexivity|]. split.
    - destruct (nth_error_split l a E) as (l1 & l2 & El & <-). rewrite El, skipn_app, skipn_all, Nat.sub_diag. reflexivity.
    - apply nth_error_In in E. apply filter_In in E as [_ W]. unfold wanted in W. intros ->. cbn in W.
      destruct skip; apply Nat.ltb_lt in W; lia. }
  assert (END : here A s (skipn (length l) l) = (length s, length s)) by (rewrite skipn_all; reflexivity).
  assert (LT : forall a b, a < b -> b <= length l -> here A s (skipn a l) <> here A s (skipn b l)).
  { intros a b L Hb. destruct (HERE a ltac:(lia)) as (p & Ep & Hp & Np). rewrite Hp.
    destruct (Nat.eq_dec b (length l)) as [->|Nb]; [now rewrite END|].
    destruct (HERE b ltac:(lia)) as (q & Eq & Hq & _). rewrite Hq. intros <-.
    pose proof (spans_apart _ _ _ _ _ _ _ Ep Eq L) as Z.
    apply nth_error_In in Ep. apply filter_In in Ep as [Ep _]. apply spans_sorted in Ep. lia. }
  unfold same. destruct (Nat.eqb_spec i j) as [->|Nij]; [now rewrite !Nat.eqb_refl|].
  assert (D : here A s (skipn i l) <> here A s (skipn j l)).
  { destruct (Nat.lt_ge_cases i j); [apply LT; lia|]. apply not_eq_sym, LT; lia. }
  destruct (here A s (skipn i l)) as [a b], (here A s (skipn j l)) as [c d]. cbn [fst snd].
  destruct (Nat.eqb_spec a c), (Nat.eqb_spec b d); try reflexivity. congruence.
Qed.
Print Assumptions C119_equal.

(* What no assertion ends is the same in both builds. *)
Theorem C119_builds A (sep : A -> bool) s os r :
  run A sep s true os (fun _ => None) = Some (r, false) -> run A sep s false os (fun _ => None) = Some (r, false).
Proof.
  rewrite !C119_program. generalize (fun _ : nat => @None (list (nat * nat))). revert r.
  induction os as [|o os IH]; intros r st; cbn [story]; [auto|].
  assert (S : forall x st', says A sep s true o st = Some (x, st', false) -> says A sep s false o st = Some (x, st', false)).
  { intros x st'. destruct o as [a k|a b|a|a|a|a|a|a|a b|a b|a|a]; cbn [says]; auto;
      destruct (st a); cbn [option_map]; try discriminate; intros [= <- <- E]; reflexivity. }
  destruct (says A sep s true o st) as [[[x st'] [|]]|]; try discriminate. rewrite (S x st' eq_refl).
  destruct (story A sep s true os st') as [[l b]|] eqn:E; cbn; [|discriminate]. intros [= <- ->]. now rewrite (IH l st' E).
Qed.
Print Assumptions C119_builds.

(* Moving `first` twice is harmless if an iterator moved from is what it was, *)
Theorem C119_moved A (sep : A -> bool) s skip moved : moved s = s ->
  make_moved A sep s moved skip = make A sep (S (length s)) s skip.
Proof. intros E. unfold make_moved, make. now rewrite E. Qed.
Print Assumptions C119_moved.
(* and loses the tokens if it is not. *)
Theorem C119_moved_refuted : exists (s : list nat) moved t,
  make_moved nat (Nat.eqb 0) s moved false = Some t /\ peek nat t = [1; 0; 2] /\
  tokens nat (Nat.eqb 0) s false = Some [[1]; [2]].
Proof. exists [1; 0; 2], (fun _ => []). eexists. split; [reflexivity|]. split; reflexivity. Qed.
Print Assumptions C119_moved_refuted.

(* "a,,b" twice, and an end that is passed *)
Definition prog : list cop :=
  [Make 0 false; Make 1 true; Same 0 1; Next 0; Copy 2 0; Peek 2; Next 1; Same 2 1; Inc 2; Same 2 1; Next 2; AtEnd 2; HasNext 1; PostInc 1; Same 1 2; Peek 1; Next 1; Empty 0].
Example C119_ex_release : run nat (Nat.eqb 0) [5; 0; 0; 6] false prog (fun _ => None) =
  Some ([Nothing; Nothing; Answer true; Range 0 1; Nothing; Range 2 2; Range 0 1; Answer false; Nothing; Answer true; Range 3 4; Answer true;
         Answer true; Nothing; Answer true; Range 4 4; Range 4 4; Answer false], false).
Proof. reflexivity. Qed.
Example C119_ex_debug : run nat (Nat.eqb 0) [5; 0; 0; 6] true prog (fun _ => None) =
  Some ([Nothing; Nothing; Answer true; Range 0 1; Nothing; Range 2 2; Range 0 1; Answer false; Nothing; Answer true; Range 3 4; Answer true;
         Answer true; Nothing; Answer true; Range 4 4], true).
Proof. reflexivity. Qed.
Example C119_ex_builds : exists r, run nat (Nat.eqb 0) [5; 0; 0; 6] true (firstn 16 prog) (fun _ => None) = Some (r, false).
Proof. eexists. reflexivity. Qed.
Example C119_ex_tokens : all_tokens nat (Nat.eqb 0) [5; 0; 0; 6; 0] false = [(0, 1); (2, 2); (3, 4)] /\
  all_tokens nat (Nat.eqb 0) [5; 0; 0; 6; 0] true = [(0, 1); (3, 4)].
Proof. split; reflexivity. Qed.
