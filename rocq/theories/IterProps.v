(* C92: iterators that count *)
From Coq Require Import List Bool Arith ZArith Lia.
From Verif Require Import ConvertModel ConfigModel IterModel IterSpec IterProofs.
Import ListNotations.
Open Scope Z_scope.

Theorem C92_numeric : forall t debug os q, plain t ->
  (forall x, inside (numeric_rules t debug) (snd (q x))) -> legal_run (numeric_rules t debug) (fun _ p => p) q os ->
  exists st, run (numeric t debug) (fun x => snd (q x)) os = Val (st, snd (ideal_run (fun _ p => p) q os)) /\
    forall x, st x = snd (fst (ideal_run (fun _ p => p) q os) x).
Proof.
  intros t debug os q Hp Hi Hl.
  destruct (run_right _ _ _ _ (numeric_right t debug Hp) os (fun x => snd (q x)) q) as (st & E & H & _); auto. eauto.
Qed.
Print Assumptions C92_numeric.

Theorem C92_config : forall cfg debug os q, fits cfg ->
  (forall x, inside (conf_rules cfg debug) (snd (q x))) -> legal_run (conf_rules cfg debug) (celem cfg) q os ->
  exists st, run (confit debug cfg) (fun x => cplace cfg (q x)) os = Val (st, snd (ideal_run (celem cfg) q os)) /\
    forall x, st x = cplace cfg (fst (ideal_run (celem cfg) q os) x).
Proof.
  intros cfg debug os q Hp Hi Hl.
  destruct (run_right _ _ _ _ (conf_right cfg debug Hp) os (fun x => cplace cfg (q x)) q) as (st & E & H & _); auto. eauto.
Qed.
Print Assumptions C92_config.

(* the three loops of user code give the entries, forwards and backwards *)
Theorem C92_loops : forall cfg debug b fuel, fits cfg -> (size (cfg b) < fuel)%nat ->
  exists first last,
    c_start debug cfg b 0 = Val first /\ c_start debug cfg b (Z.of_nat (size (cfg b))) = Val last /\
    c_loop debug cfg fuel first last = Val (iterate (cfg b)) /\
    c_drain debug cfg fuel first = Val (iterate (cfg b)) /\
    c_reverse debug cfg fuel last first = Val (rev (iterate (cfg b))).
Proof.
  intros cfg debug b fuel Hf Hn.
  exists (cplace cfg (b, Z.of_nat 0)), (cplace cfg (b, Z.of_nat (size (cfg b)))).
  split; [apply begin_at; assumption|]. split; [apply end_at; assumption|].
  split; [apply (loop_from cfg debug Hf b (size (cfg b)) 0); lia|].
  split; [apply (drain_from cfg debug Hf b (size (cfg b)) 0); lia|].
  rewrite (reverse_from cfg debug Hf b (size (cfg b))) by lia. rewrite firstn_all2; [reflexivity|].
  unfold iterate. rewrite map_length, seq_length. lia.
Qed.
Print Assumptions C92_loops.

(* reading outside of the config stops a debug build and gives an empty entry in a release build *)
Theorem C92_outside : forall cfg q debug, fits cfg -> tmin ptrdiff <= snd q <= tmax ptrdiff ->
  ~ (0 <= snd q < Z.of_nat (size (cfg (fst q)))) ->
  match deref (confit debug cfg) (cplace cfg q) with
  | Stop => debug = true
  | Val e => debug = false /\ e_val e = None
  | Undef => False
  end.
Proof.
  intros cfg q debug Hf Hr Hn. cbn [confit deref]. unfold c_deref, requires. destruct debug.
  - unfold is_dereferencable. cbn [cplace m_backend m_idx m_size].
    destruct (cfg (fst q)); [|reflexivity].
    destruct (Z.leb_spec 0 (snd q)), (Z.ltb_spec (snd q) (Z.of_nat (size (Some c)))); try reflexivity. lia.
  - split; [reflexivity|]. unfold c_entry, cplace. cbn [m_backend m_idx].
    assert (Z.of_nat (size (cfg (fst q))) <= cast sizet (snd q)).
    { assert (A := Hf (fst q)). destruct (Z.lt_ge_cases (snd q) 0).
      - unfold sizet, cast. cbn [andb]. rewrite <- (Z.mod_unique (snd q) (2 ^ 64) (-1) (snd q + 2 ^ 64)).
        + ints. lia.
        + left. ints. lia.
        + lia.
      - rewrite cast_in; [lia|exists false, 64; split; [reflexivity|lia]|ints; lia]. }
    unfold entry_at. destruct (cfg (fst q)) as [c|]; [|reflexivity]. cbn [size] in H.
    unfold find_index. unfold csize in H. rewrite (proj2 (nth_error_None _ _)) by lia. reflexivity.
Qed.
Print Assumptions C92_outside.

(* The conditions of a debug build are wrong for a step back by a negative offset. *)
Theorem C92_negative_offset_config : forall it d, tmin ptrdiff <= d < 0 ->
  c_add_to true it d = Undef /\ c_sub_from true it d = Undef.
Proof.
  intros it d H. unfold c_add_to, c_sub_from, difference, sum, arith, ptrdiff in *. ints. split.
  - destruct (Z.leb_spec (-9223372036854775808) (9223372036854775807 - d)), (Z.leb_spec (9223372036854775807 - d) 9223372036854775807); try lia; reflexivity.
  - destruct (Z.leb_spec (-9223372036854775808) (-9223372036854775808 + d)), (Z.leb_spec (-9223372036854775808 + d) 9223372036854775807); try lia; reflexivity.
Qed.
Print Assumptions C92_negative_offset_config.

Theorem C92_negative_offset_numeric : forall t m d, plain t -> tmin ptrdiff <= d < 0 ->
  (signed t = true -> 32 <= width t -> tmin t <= d -> n_add_to t true m d = Undef /\ n_sub_from t true m d = Undef) /\
  (signed t = false -> n_add_to t true m d = Stop /\ n_sub_from t true m d = Stop).
Proof.
  intros t m d Hp Hd. split.
  - intros Hs Hw Hm. unfold n_add_to, n_sub_from. rewrite narrow_in; auto using plain_pos, ptrdiff_pos.
    + cbn [bind]. unfold difference, sum, arith.
      destruct Hp as (s & n & -> & Hin). cbn [signed is_signed] in Hs. subst s. cbn [width] in Hw.
      assert (Hn : n = 32 \/ n = 64) by (cbn in Hin; lia).
      destruct Hn as [-> | ->]; ints; split.
      * destruct (Z.leb_spec (-2147483648) (2147483647 - d)), (Z.leb_spec (2147483647 - d) 2147483647); try lia; reflexivity.
      * destruct (Z.leb_spec (-2147483648) (-2147483648 + d)), (Z.leb_spec (-2147483648 + d) 2147483647); try lia; reflexivity.
      * destruct (Z.leb_spec (-9223372036854775808) (9223372036854775807 - d)), (Z.leb_spec (9223372036854775807 - d) 9223372036854775807); try lia; reflexivity.
      * destruct (Z.leb_spec (-9223372036854775808) (-9223372036854775808 + d)), (Z.leb_spec (-9223372036854775808 + d) 9223372036854775807); try lia; reflexivity.
    + split; [assumption|]. clear - Hp Hd. types Hp; ints; lia.
    + ints; lia.
  - intro Hs. assert (E : narrow true t ptrdiff d = Stop).
    { unfold narrow, narrow_cast. destruct (plain_pos t Hp) as (s & n & -> & Hn). cbn [signed is_signed] in Hs. subst s.
      cbn [is_signed ptrdiff Bool.eqb].
      assert (R : 0 <= cast (Int false n) d) by (exact (proj1 (cast_range false n d Hn))).
      destruct (Z.ltb_spec (cast (Int false n) d) 0); [lia|].
      destruct (Z.ltb_spec d 0); [|lia]. cbn [Bool.eqb]. rewrite andb_false_r. reflexivity. }
    unfold n_add_to, n_sub_from. rewrite E. split; reflexivity.
Qed.
Print Assumptions C92_negative_offset_numeric.

(* so a program that is right in a release build need not run in a debug build *)
Definition two : nat -> option conf := fun _ => Some (Conf KArray [([], Some (VInt 5)); ([], Some (VInt 7))]).
Theorem C92_debug_agrees_refuted : exists cfg q os, fits cfg /\
  (forall x, inside (conf_rules cfg false) (snd (q x))) /\
  legal_run (conf_rules cfg false) (celem cfg) q os /\
  run (confit true cfg) (fun x => cplace cfg (q x)) os = Undef.
Proof.
  exists two, (fun _ => (O, 0)), [Start 0 0 2; Plus 1 0 (-1); Deref 1]%nat.
  split; [intro b; vm_compute; discriminate|]. split; [intro x; vm_compute; split; discriminate|].
  split; [vm_compute; repeat split; discriminate|reflexivity].
Qed.
Print Assumptions C92_debug_agrees_refuted.

(* it[d] of a numeric_iterator never gives a value one may read *)
Theorem C92_subscript_refuted : exists t, plain t /\ forall debug m d,
  tmin t <= m + d <= tmax t -> forall v, subscript (numeric t debug) m d <> Val v.
Proof.
  exists int32. split; [exists true, 32; cbn; auto 6|]. intros debug m d _ v. cbn [numeric subscript]. unfold n_subscript.
  destruct (n_plus int32 debug m d); discriminate.
Qed.
Print Assumptions C92_subscript_refuted.

(* iterators over uint32_t that are subtracted the wrong way round *)
Theorem C92_unsigned_gap_refuted : exists t a b, plain t /\ tmin t <= a <= tmax t /\ tmin t <= b <= tmax t /\
  diff (numeric t false) a b <> Val (a - b) /\ exists z, diff (numeric t false) a b = Val z /\ 0 < z.
Proof.
  exists (Int false 32), 5, 10. split; [exists false, 32; cbn; auto 6|]. split; [vm_compute; split; discriminate|]. split; [vm_compute; split; discriminate|].
  split; [discriminate|]. eexists. split; [reflexivity|reflexivity].
Qed.
Print Assumptions C92_unsigned_gap_refuted.

(* ---- examples ---- *)
Example C92_ex_config : exists cfg q os st, fits cfg /\
  (forall x, inside (conf_rules cfg true) (snd (q x))) /\ legal_run (conf_rules cfg true) (celem cfg) q os /\
  run (confit true cfg) (fun x => cplace cfg (q x)) os =
    Val (st, [ANone; ANone; ANone; AVal (Entry 1 [] (Some (VInt 7))); AInt (-1); ABool true; ANone; AInt 1]).
Proof.
  eexists two, (fun _ => (O, 0)), [Start 0 0 0; Start 1 0 2; MinusL 2 1 1; Deref 2; Diff 2 1; Lt 2 1; PostInc 2 3; Diff 2 3]%nat, _.
  split; [intro b; vm_compute; discriminate|]. split; [intro x; vm_compute; split; discriminate|].
  split; [vm_compute; repeat split; discriminate|reflexivity].
Qed.
Example C92_ex_numeric : exists st, plain (Int false 8) /\
  legal_run (numeric_rules (Int false 8) false) (fun _ p => p) (fun _ => (O, 0))
    [Start 0 0 200; AddTo 0 (-50); Start 1 0 255; Diff 0 1; PostDec 1 2; Deref 1; Deref 2]%nat /\
  run (numeric (Int false 8) false) (fun _ => 0)
    [Start 0 0 200; AddTo 0 (-50); Start 1 0 255; Diff 0 1; PostDec 1 2; Deref 1; Deref 2]%nat =
    Val (st, [ANone; ANone; ANone; AInt (-105); ANone; AVal 254; AVal 255]).
Proof.
  eexists. split; [exists false, 8; cbn; auto 6|].
  split; [vm_compute; repeat split; try discriminate; intros; discriminate|reflexivity].
Qed.
Example C92_ex_outside : deref (confit false two) (cplace two (O, -1)) = Val (entry_at (two O) (Z.to_nat (cast sizet (-1)))) /\
  deref (confit true two) (cplace two (O, -1)) = Stop /\ deref (confit true two) (cplace two (O, 2)) = Stop.
Proof. repeat split. Qed.
Example C92_ex_loops : exists first last, fits two /\ c_start true two 0 0 = Val first /\ c_start true two 0 2 = Val last /\
  c_reverse true two 3 last first = Val [Entry 1 [] (Some (VInt 7)); Entry 0 [] (Some (VInt 5))].
Proof. eexists _, _. split; [intro b; vm_compute; discriminate|]. split; [reflexivity|]. split; reflexivity. Qed.
Example C92_ex_negative : n_add_to int32 true 10 (-3) = Undef /\ n_add_to (Int false 32) true 10 (-3) = Stop /\
  n_add_to int32 false 10 (-3) = Val 7 /\ n_add_to (Int false 32) false 10 (-3) = Val 7 /\ n_add_to (Int true 16) true 10 (-3) = Val 7.
Proof. repeat split. Qed.
