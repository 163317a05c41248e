(* Addressing of N-D containers: the sum of index times step, spacing, inclusion in
   the block, traversal and continuity. *)
From Coq Require Import List Bool NArith ZArith Lia Arith.
From Verif Require Import NdModel NdSpec.
Import ListNotations.
Local Open Scope N_scope.
Set Default Proof Using "Type".

Lemma pow64_pos : 0 < 2 ^ 64. Proof. reflexivity. Qed.
Lemma pow64_nz : 2 ^ 64 <> 0. Proof. discriminate. Qed.
Lemma w64_small a : a < 2 ^ 64 -> w64 a = a. Proof. apply N.mod_small. Qed.
Lemma w64_lt a : w64 a < 2 ^ 64. Proof. apply N.mod_lt, pow64_nz. Qed.
Lemma w64_add_l a b : w64 (w64 a + b) = w64 (a + b). Proof. apply N.add_mod_idemp_l, pow64_nz. Qed.
Lemma w64_add_r a b : w64 (a + w64 b) = w64 (a + b). Proof. apply N.add_mod_idemp_r, pow64_nz. Qed.
Lemma w64_mul_l a b : w64 (w64 a * b) = w64 (a * b). Proof. apply N.mul_mod_idemp_l, pow64_nz. Qed.
Lemma w64_mul_r a b : w64 (a * w64 b) = w64 (a * b). Proof. apply N.mul_mod_idemp_r, pow64_nz. Qed.

(* ---- steps ---- *)

Definition steps (k : kind) (sz : N) (ds : list desc) : list N := map (bytes k sz) (tl ds) ++ [sz].

Lemma nested_dot k sz is : forall p, length is = length (p_descs p) -> is <> [] ->
  nested k sz p is = w64 (p_ptr p + dot is (steps k sz (p_descs p))).
Proof.
  induction is as [|i is IH]; intros [ptr ds] L E; [congruence|].
  destruct is as [|j js].
  - destruct ds as [|d [|]]; try discriminate.
    cbn. unfold elem, add64, mul64. cbn. now rewrite w64_add_r, N.add_0_r.
  - destruct ds as [|d [|d' ds]]; try discriminate.
    change (nested k sz (Proxy ptr (d :: d' :: ds)) (i :: j :: js))
      with (nested k sz (sub_view k sz (Proxy ptr (d :: d' :: ds)) i) (j :: js)).
    rewrite IH; [|cbn in *; lia|discriminate].
    unfold steps. cbn [sub_view p_descs p_ptr tl map app dot].
    unfold add64, mul64. rewrite w64_add_l, <- w64_add_l, w64_add_r, w64_add_l. now rewrite N.add_assoc.
Qed.

Lemma dot_app is js a b : length is = length a -> dot (is ++ js) (a ++ b) = dot is a + dot js b.
Proof.
  revert a. induction is as [|i is IH]; intros [|x a] L; try discriminate; cbn; [lia|].
  rewrite IH; [lia|]. cbn in L. lia.
Qed.

(* steps that leave room *)
Fixpoint ok (ext st : list N) : Prop :=
  match ext, st with
  | _ :: er, b :: br =>
      match er, br with
      | [], [] => True
      | e' :: _, b' :: _ => e' * b' <= b /\ ok er br
      | _, _ => False
      end
  | _, _ => False
  end.

Lemma ok_inv e ext b st : ok (e :: ext) (b :: st) ->
  (ext = [] /\ st = []) \/
  exists e' er b' br, ext = e' :: er /\ st = b' :: br /\ e' * b' <= b /\ ok (e' :: er) (b' :: br).
Proof.
  destruct ext as [|e' er], st as [|b' br]; intros H; try (now left); try (now destruct H).
  right. exists e', er, b', br. repeat split; apply H.
Qed.
Ltac oinv H := let Hb := fresh "Hb" in
  apply ok_inv in H; destruct H as [[-> ->]|(?e' & ?er & ?b' & ?br & -> & -> & Hb & H)].

Lemma ok_length ext : forall st, ok ext st -> length ext = length st.
Proof.
  induction ext as [|e ext IH]; intros [|b st] H; try easy.
  oinv H; [reflexivity|]. specialize (IH _ H). cbn in *. lia.
Qed.

Lemma dot_inside ext : forall st is, ok ext st -> in_range ext is ->
  dot is st + last st 0 <= hd 0 ext * hd 0 st.
Proof.
  induction ext as [|e ext IH]; intros [|b st] is H R; try (cbn in H; tauto).
  inversion R as [|? i ? is' Hi R']; subst.
  destruct ext as [|e' ext], st as [|b' st]; try (now destruct H).
  - inversion R'; subst. cbn. nia.
  - change (e' * b' <= b /\ ok (e' :: ext) (b' :: st)) in H. destruct H as [Hb H]. specialize (IH _ _ H R').
    change (last (b :: b' :: st) 0) with (last (b' :: st) 0).
    change (dot (i :: is') (b :: b' :: st)) with (i * b + dot is' (b' :: st)).
    cbn [hd] in *. nia.
Qed.

Lemma dot_spaced ext : forall st is js, ok ext st -> in_range ext is -> in_range ext js -> lex is js ->
  dot is st + last st 0 <= dot js st.
Proof.
  induction ext as [|e ext IH]; intros [|b st] is js H R R2 X; try (cbn in H; tauto).
  inversion R as [|? i ? is' Hi R']; subst. inversion R2 as [|? j ? js' Hj R2']; subst.
  destruct ext as [|e' ext], st as [|b' st]; try (now destruct H).
  - inversion R'; subst. inversion R2'; subst. inversion X as [? ? ? ? L|? ? ? X']; subst; [|inversion X'].
    cbn. nia.
  - change (e' * b' <= b /\ ok (e' :: ext) (b' :: st)) in H. destruct H as [Hb H].
    change (last (b :: b' :: st) 0) with (last (b' :: st) 0).
    change (dot (i :: is') (b :: b' :: st)) with (i * b + dot is' (b' :: st)).
    change (dot (j :: js') (b :: b' :: st)) with (j * b + dot js' (b' :: st)).
    inversion X as [? ? ? ? L|? ? ? X']; subst.
    + pose proof (dot_inside _ _ _ H R') as D. cbn [hd] in D. nia.
    + pose proof (IH _ _ _ H R' R2' X'). lia.
Qed.

Lemma lex_total is : forall js, length is = length js -> is = js \/ lex is js \/ lex js is.
Proof.
  induction is as [|i is IH]; intros [|j js] L; try discriminate; [now left|].
  cbn in L. injection L as L.
  destruct (N.lt_trichotomy i j) as [H|[->|H]].
  - right; left. now constructor.
  - destruct (IH _ L) as [->|[H|H]]; [now left|right; left; now constructor|right; right; now constructor].
  - right; right. now constructor.
Qed.

Lemma in_range_length ext is : in_range ext is -> length ext = length is.
Proof. intros H. induction H; cbn; congruence. Qed.

Lemma lex_irrefl is : ~ lex is is.
Proof. induction is as [|i is IH]; intros H; inversion H; subst; [lia|auto]. Qed.

(* ---- the steps of element strides ---- *)

Fixpoint esteps (sz : N) (ss : list N) : list N :=
  match ss with [] => [sz] | s :: r => stored sz (s :: r) :: esteps sz r end.

Lemma esteps_last sz ss : last (esteps sz ss) 0 = sz.
Proof.
  induction ss as [|s ss IH]; [reflexivity|].
  cbn [esteps]. destruct (esteps sz ss) as [|x l] eqn:E; [destruct ss; discriminate|].
  change (last (stored sz (s :: ss) :: x :: l) 0) with (last (x :: l) 0). exact IH.
Qed.
Lemma esteps_hd sz ss : hd 0 (esteps sz ss) = stored sz ss.
Proof. now destruct ss. Qed.
Lemma esteps_length sz ss : length (esteps sz ss) = S (length ss).
Proof. induction ss; cbn; congruence. Qed.

Lemma esteps_ok sz e ext ss : Forall2 N.le ext ss -> ok (e :: ext) (esteps sz ss).
Proof.
  intros H. revert e. induction H as [|x s ext ss Hx H IH]; intros e; [exact I|].
  specialize (IH x). cbn [esteps]. pose proof (esteps_hd sz ss) as Eh.
  destruct (esteps sz ss) as [|b bs] eqn:E; [destruct ss; discriminate|].
  cbn [hd] in Eh. subst b. change (x * stored sz ss <= stored sz (s :: ss) /\ ok (x :: ext) (stored sz ss :: bs)).
  split; [now apply N.mul_le_mono_r|exact IH].
Qed.

Lemma stored_volume sz ext : stored sz ext = volume ext * sz.
Proof. induction ext as [|e ext IH]; cbn [stored volume]; [lia|]. rewrite IH. lia. Qed.

Lemma dot_dense sz e ext : forall is, length is = S (length ext) ->
  dot is (esteps sz ext) = row_major (e :: ext) is * sz.
Proof.
  revert e. induction ext as [|x ext IH]; intros e is L.
  - destruct is as [|i [|]]; try discriminate. cbn [dot esteps row_major volume]. lia.
  - destruct is as [|i is]; try discriminate. cbn in L.
    change (dot (i :: is) (esteps sz (x :: ext))) with (i * stored sz (x :: ext) + dot is (esteps sz ext)).
    change (row_major (e :: x :: ext) (i :: is)) with (i * volume (x :: ext) + row_major (x :: ext) is).
    rewrite (IH x) by lia. rewrite stored_volume. lia.
Qed.

(* ---- descriptors ---- *)

Definition congr (l l' : list N) : Prop := Forall2 (fun a b => w64 a = w64 b) l l'.

Lemma congr_dot l l' : congr l l' -> forall is, w64 (dot is l) = w64 (dot is l').
Proof.
  intros H. induction H as [|a b l l' E H IH]; intros [|i is]; try reflexivity.
  cbn. rewrite <- w64_add_r, IH, w64_add_r, <- w64_add_l, <- w64_mul_r, E, w64_mul_r, w64_add_l. reflexivity.
Qed.

Lemma w64_w64 a : w64 (w64 a) = w64 a.
Proof. apply N.mod_mod, pow64_nz. Qed.

Lemma plain_descs_facts ext :
  map d_size (plain_descs ext) = ext /\
  match plain_descs ext with
  | [] => ext = []
  | d :: _ => ext <> [] /\ w64 (d_total d) = w64 (volume ext) /\ d_offset d = d_total d
  end.
Proof.
  induction ext as [|e ext [IH1 IH2]]; [easy|].
  cbn [plain_descs]. destruct (plain_descs ext) as [|d ds] eqn:E.
  - subst ext. cbn. rewrite N.mul_1_r. easy.
  - destruct IH2 as (_ & IH & _). cbn in *. split; [f_equal; exact IH1|]. split; [discriminate|].
    split; [|reflexivity]. unfold mul64. now rewrite w64_w64, <- w64_mul_r, IH, w64_mul_r.
Qed.

Lemma plain_steps sz ext : congr (map (bytes Plain sz) (plain_descs ext) ++ [sz]) (esteps sz ext).
Proof.
  induction ext as [|e ext IH]; [now repeat constructor|].
  pose proof (plain_descs_facts (e :: ext)) as [_ F].
  cbn [plain_descs] in *. destruct (plain_descs ext) as [|d ds] eqn:E.
  - constructor; [|exact IH]. destruct F as (_ & F & _).
    change (w64 (mul64 e sz) = w64 (stored sz (e :: ext))).
    rewrite stored_volume. unfold mul64. rewrite w64_w64. cbn [d_total] in F.
    now rewrite <- w64_mul_l, F, w64_mul_l.
  - constructor; [|exact IH]. destruct F as (_ & F & _).
    set (t := mul64 e (d_total d)) in *.
    change (w64 (mul64 t sz) = w64 (stored sz (e :: ext))).
    rewrite stored_volume. unfold mul64. rewrite w64_w64. cbn [d_total] in F.
    now rewrite <- w64_mul_l, F, w64_mul_l.
Qed.

Lemma elem_descs_facts sz es :
  map d_size (elem_descs sz es) = map fst es /\
  match elem_descs sz es with
  | [] => es = []
  | d :: _ => es <> [] /\ w64 (d_total d) = w64 (volume (map fst es)) /\ d_offset d = w64 (stored sz (map snd es))
  end.
Proof.
  induction es as [|[e s] es [IH1 IH2]]; [easy|].
  cbn [elem_descs]. destruct (elem_descs sz es) as [|d ds] eqn:E.
  - subst es. cbn. rewrite N.mul_1_r. easy.
  - destruct IH2 as (_ & IH & IO). cbn in *. split; [f_equal; exact IH1|]. split; [discriminate|].
    unfold mul64. rewrite w64_w64. split; [now rewrite <- w64_mul_r, IH, w64_mul_r|].
    now rewrite IO, w64_mul_r.
Qed.

Lemma elem_steps sz es : congr (map (bytes Strided sz) (elem_descs sz es) ++ [sz]) (esteps sz (map snd es)).
Proof.
  induction es as [|[e s] es IH]; [now repeat constructor|].
  pose proof (elem_descs_facts sz ((e, s) :: es)) as [_ F].
  cbn [elem_descs] in *. destruct (elem_descs sz es) as [|d ds] eqn:E; cbn in F;
    (constructor; [destruct F as (_ & _ & F); cbn; rewrite F; apply w64_w64|exact IH]).
Qed.

(* exact version: nothing wraps *)
Lemma elem_steps_exact sz es : 0 < sz -> Forall (fun s => 0 < s) (map snd es) -> stored sz (map snd es) < 2 ^ 64 ->
  map (bytes Strided sz) (elem_descs sz es) ++ [sz] = esteps sz (map snd es).
Proof.
  intros Hz. induction es as [|[e s] es IH]; intros P B; [reflexivity|].
  pose proof (elem_descs_facts sz ((e, s) :: es)) as [_ F].
  cbn [map snd] in P. inversion P as [|? ? Ps P']; subst. cbn [map snd stored] in B.
  assert (B' : stored sz (map snd es) < 2 ^ 64) by nia.
  specialize (IH P' B').
  cbn [elem_descs] in *. destruct (elem_descs sz es) as [|d ds] eqn:E;
    (destruct F as (_ & _ & F); refine (f_equal2 cons _ IH);
     unfold bytes, offset_to_bytes; rewrite F; apply w64_small; exact B).
Qed.

Lemma top_desc_facts sz e ds :
  map d_size (top_desc sz e ds) = e :: map d_size ds /\ tl (top_desc sz e ds) = ds.
Proof. destruct ds; easy. Qed.

Lemma volume_le_stored sz ext ss : Forall2 N.le ext ss -> volume ext * sz <= stored sz ss.
Proof.
  intros H. induction H as [|x s ext ss Hx H IH]; cbn [volume stored]; [lia|].
  rewrite <- N.mul_assoc. now apply N.mul_le_mono.
Qed.

Lemma positive_range ext is : in_range ext is -> Forall (fun e => 0 < e) ext.
Proof. intros H. induction H; constructor; [lia|assumption]. Qed.

(* ---- walks ---- *)

Lemma walk_n fuel step : 0 < step -> forall m b, (m < fuel)%nat -> b + N.of_nat m * step < 2 ^ 64 ->
  walk fuel step b (b + N.of_nat m * step) = Some (map (fun i => b + N.of_nat i * step) (seq 0 m)).
Proof.
  intros Hs. induction fuel as [|f IH]; intros m b Hm B; [lia|]. cbn [walk].
  destruct m as [|m].
  - cbn. rewrite N.add_0_r, N.eqb_refl. reflexivity.
  - destruct (N.eqb_spec b (b + N.of_nat (S m) * step)) as [E|_]; [nia|].
    unfold add64. rewrite w64_small by nia.
    replace (b + N.of_nat (S m) * step) with (b + step + N.of_nat m * step) by lia.
    rewrite IH by nia. cbn [seq map]. do 2 f_equal; [cbn; lia|].
    rewrite <- seq_shift, map_map. apply map_ext. intros i. lia.
Qed.

Lemma walk_upto fuel step b n : 0 < step -> (N.to_nat n < fuel)%nat -> b + n * step < 2 ^ 64 ->
  walk fuel step b (add64 b (mul64 n step)) = Some (map (fun i => b + i * step) (upto n)).
Proof.
  intros Hs Hf B. unfold add64, mul64. rewrite w64_add_r, w64_small by exact B.
  rewrite <- (N2Nat.id n) at 1. rewrite walk_n; [|exact Hs|exact Hf|now rewrite N2Nat.id].
  unfold upto. now rewrite map_map.
Qed.

(* n steps later, whatever the step and even around the end of the address space, the
   loop has stopped *)
Lemma walk_stops fuel step : forall m b, (m < fuel)%nat -> b < 2 ^ 64 ->
  exists l, walk fuel step b (w64 (b + N.of_nat m * step)) = Some l.
Proof.
  induction fuel as [|f IH]; intros m b Hm B; [lia|]. cbn [walk].
  destruct (N.eqb_spec b (w64 (b + N.of_nat m * step))) as [E|E]; [eauto|].
  destruct m as [|m].
  - exfalso. apply E. rewrite w64_small; [cbn; lia|cbn; lia].
  - assert (Eq : w64 (b + N.of_nat (S m) * step) = w64 (add64 b step + N.of_nat m * step)).
    { unfold add64. rewrite w64_add_l. f_equal. lia. }
    rewrite Eq. destruct (IH m (add64 b step)) as [l Hl]; [lia|apply w64_lt|]. rewrite Hl. eauto.
Qed.

Lemma opt_concat_some {A B} (f : A -> option (list B)) (g : A -> list B) l :
  (forall x, In x l -> f x = Some (g x)) -> opt_concat (map f l) = Some (flat_map g l).
Proof.
  induction l as [|x l IH]; intros H; [reflexivity|].
  cbn. rewrite H by now left. rewrite IH; [reflexivity|]. intros y Hy. apply H. now right.
Qed.

Lemma flat_map_map {A B C} (f : A -> B) (g : B -> list C) l : flat_map g (map f l) = flat_map (fun x => g (f x)) l.
Proof. induction l; cbn; congruence. Qed.
Lemma map_flat_map {A B C} (f : A -> list B) (g : B -> C) l : map g (flat_map f l) = flat_map (fun x => map g (f x)) l.
Proof. induction l; cbn; [reflexivity|]. rewrite map_app. congruence. Qed.
Lemma flat_map_ext' {A B} (f g : A -> list B) l : (forall x, In x l -> f x = g x) -> flat_map f l = flat_map g l.
Proof. intros H. induction l; cbn; [reflexivity|]. rewrite H, IHl; [reflexivity| |now left]. intros. apply H. now right. Qed.

Lemma in_upto n i : In i (upto n) <-> i < n.
Proof.
  unfold upto. rewrite in_map_iff. split.
  - intros (k & <- & Hk). apply in_seq in Hk. lia.
  - intros H. exists (N.to_nat i). split; [apply N2Nat.id|]. apply in_seq. lia.
Qed.

Lemma traverse_dot k sz fuel ds : 0 < sz -> forall ptr, ds <> [] -> ok (map d_size ds) (steps k sz ds) ->
  Forall (fun e => 0 < e) (map d_size ds) ->
  Forall (fun e => (N.to_nat e < fuel)%nat) (map d_size ds) ->
  ptr + hd 0 (map d_size ds) * hd 0 (steps k sz ds) < 2 ^ 64 ->
  traverse k sz fuel ptr ds = Some (map (fun is => ptr + dot is (steps k sz ds)) (all_indices (map d_size ds))).
Proof.
  intros Hz. induction ds as [|d ds IH]; intros ptr E O P F B; [congruence|].
  cbn [map] in P, F. inversion P as [|? ? Pd P']; subst. inversion F as [|? ? Fd F']; subst.
  destruct ds as [|d' ds].
  - cbn [traverse]. rewrite walk_upto; [|exact Hz|exact Fd|exact B].
    cbn. f_equal. rewrite map_flat_map. cbn.
    clear. induction (upto (d_size d)); cbn; [reflexivity|]. rewrite <- IHl. f_equal. lia.
  - change (steps k sz (d :: d' :: ds)) with (bytes k sz d' :: steps k sz (d' :: ds)) in *.
    cbn [map] in O, P', F'. cbn [ok] in O.
    destruct (steps k sz (d' :: ds)) as [|b bs] eqn:Es; [cbn in O; tauto|].
    destruct O as [Ob O]. cbn [map hd] in B.
    inversion P' as [|? ? Pd' P'']; subst.
    assert (Hb : 0 < b).
    { pose proof (positive_range (map d_size (d' :: ds)) (map (fun _ => 0) (d' :: ds))) as _.
      destruct ds as [|d'' ds].
      - unfold steps in Es. cbn in Es. injection Es as <- <-. exact Hz.
      - cbn in O. destruct bs as [|b' bs]; [tauto|]. clear - O P'' Hz Es.
        assert (H : 0 < last (b :: b' :: bs) 0).
        { rewrite <- Es. unfold steps. rewrite last_last. exact Hz. }
        revert O P'' H. clear Es. revert b b' bs d''. induction ds as [|x ds IHd]; intros b b' bs d'' O P'' H.
        + cbn in *. destruct O as [O1 O2]. inversion P'' as [|? ? Q1 Q2]; subst.
          destruct bs; [|tauto]. cbn in H. nia.
        + cbn [map] in *. destruct O as [O1 O2]. inversion P'' as [|? ? Q1 Q2]; subst.
          destruct bs as [|b'' bs]; [cbn in O2; tauto|]. 
          assert (0 < b') by (apply (IHd b' b'' bs x); [exact O2|exact Q2|exact H]). nia. }
    change (traverse k sz fuel ptr (d :: d' :: ds)) with
      (match walk fuel (bytes k sz d') ptr (add64 ptr (mul64 (d_size d) (bytes k sz d'))) with
       | Some ps => opt_concat (map (fun q => traverse k sz fuel q (d' :: ds)) ps) | None => None end).
    rewrite walk_upto; [|nia|exact Fd|exact B].
    rewrite (opt_concat_some _ (fun q => map (fun is => q + dot is (b :: bs)) (all_indices (map d_size (d' :: ds))))).
    + f_equal. rewrite flat_map_map. cbn [map all_indices]. rewrite !map_flat_map. apply flat_map_ext'.
      intros i _. rewrite map_map.
      change (d_size d' :: map d_size ds) with (map d_size (d' :: ds)).
      change (flat_map (fun i0 => map (cons i0) (all_indices (map d_size ds))) (upto (d_size d'))) with (all_indices (map d_size (d' :: ds))).
      apply map_ext. intros is. cbn [dot]. lia.
    + intros q Hq. apply in_map_iff in Hq. destruct Hq as (i & <- & Hi). apply in_upto in Hi.
      apply IH; [discriminate|exact O|exact P'|exact F'|]. cbn [map hd]. nia.
Qed.

(* a zero extent: nothing is visited *)
Lemma traverse_zero k sz fuel ds : forall ptr, In 0 (map d_size ds) -> ptr < 2 ^ 64 ->
  Forall (fun e => (N.to_nat e < fuel)%nat) (map d_size ds) ->
  traverse k sz fuel ptr ds = Some [].
Proof.
  induction ds as [|d ds IH]; intros ptr Z B F; [easy|].
  cbn [map] in F. inversion F as [|? ? Fd F']; subst.
  assert (W : forall st, d_size d = 0 -> walk fuel st ptr (add64 ptr (mul64 (d_size d) st)) = Some []).
  { intros st E. rewrite E. unfold add64, mul64. cbn [N.mul]. change (w64 0) with 0. rewrite N.add_0_r, w64_small by exact B.
    destruct fuel; [lia|]. cbn. now rewrite N.eqb_refl. }
  destruct ds as [|d' ds].
  - destruct Z as [Z|[]]. cbn. now apply W.
  - change (traverse k sz fuel ptr (d :: d' :: ds)) with
      (match walk fuel (bytes k sz d') ptr (add64 ptr (mul64 (d_size d) (bytes k sz d'))) with
       | Some ps => opt_concat (map (fun q => traverse k sz fuel q (d' :: ds)) ps) | None => None end).
    destruct Z as [Z|Z]; [now rewrite W|].
    destruct (walk_stops fuel (bytes k sz d') (N.to_nat (d_size d)) ptr Fd B) as [l Hl].
    rewrite N2Nat.id in Hl. unfold add64, mul64. rewrite w64_add_r, Hl.
    assert (Q : Forall (fun q => q < 2 ^ 64) l).
    { clear - Hl B. revert B l Hl. generalize (w64 (ptr + d_size d * bytes k sz d')). intros e. revert ptr.
      induction fuel as [|f IHf]; intros b B l H; [discriminate|]. cbn in H.
      destruct (b =? e); [injection H as <-; constructor|].
      destruct (walk f (bytes k sz d') (add64 b (bytes k sz d')) e) eqn:E; [|discriminate].
      injection H as <-. constructor; [exact B|]. eapply IHf; [apply w64_lt|exact E]. }
    rewrite (opt_concat_some _ (fun _ => [])).
    + f_equal. clear. induction l; easy.
    + intros q Hq. apply IH; [exact Z| |exact F']. eapply Forall_forall in Q; eauto.
Qed.

(* ---- continuity ---- *)

Lemma seq_blocks v : forall e, seq 0 (e * v) = flat_map (fun i => seq (i * v) v) (seq 0 e).
Proof.
  induction e as [|e IH]; [reflexivity|].
  rewrite seq_S, flat_map_app, <- IH. cbn [flat_map]. rewrite app_nil_r.
  replace (S e * v)%nat with (e * v + v)%nat by lia. now rewrite seq_app.
Qed.

Lemma row_major_all ext : map (row_major ext) (all_indices ext) = upto (volume ext).
Proof.
  induction ext as [|e ext IH]; [reflexivity|].
  cbn [all_indices volume]. rewrite map_flat_map.
  transitivity (flat_map (fun i => map (fun k => i * volume ext + k) (upto (volume ext))) (upto e)).
  - apply flat_map_ext'. intros i _. rewrite map_map, <- IH, map_map. reflexivity.
  - unfold upto. rewrite N2Nat.inj_mul, seq_blocks, map_flat_map, flat_map_map. apply flat_map_ext'.
    intros i _. rewrite map_map. set (v := volume ext). clearbody v. rewrite <- (N2Nat.id v). generalize (N.to_nat v) as n. intros n. rewrite Nat2N.id.
    replace (seq (i * n) n) with (map (Nat.add (i * n)) (seq 0 n)).
    + rewrite map_map. apply map_ext. intros k. lia.
    + generalize (i * n)%nat as a. intros a. transitivity (seq (a + 0) n); [|now rewrite Nat.add_0_r]. generalize 0%nat as c.
      induction n as [|n IHn]; intros c; [reflexivity|]. cbn. f_equal. rewrite IHn. now rewrite Nat.add_succ_r.
Qed.

Lemma all_indices_range ext is : In is (all_indices ext) <-> in_range ext is.
Proof.
  revert is. induction ext as [|e ext IH]; intros is.
  - cbn. split; [intros [<-|[]]; constructor|]. intros H. inversion H. now left.
  - cbn [all_indices]. rewrite in_flat_map. split.
    + intros (i & Hi & H). apply in_map_iff in H. destruct H as (r & <- & Hr).
      constructor; [now apply in_upto|now apply IH].
    + intros H. inversion H as [|? i ? r Hi Hr]; subst. exists i. split; [now apply in_upto|].
      apply in_map. now apply IH.
Qed.

(* equality of the block with the plain size forces every step *)
Lemma volume_le ext : forall st, ok ext st -> volume ext * last st 0 <= hd 0 ext * hd 0 st.
Proof.
  induction ext as [|e ext IH]; intros [|b st] H; try (cbn in H; tauto).
  destruct ext as [|e' ext], st as [|b' st]; try (now destruct H).
  - cbn. lia.
  - change (e' * b' <= b /\ ok (e' :: ext) (b' :: st)) in H. destruct H as [Hb H]. specialize (IH _ H).
    change (last (b :: b' :: st) 0) with (last (b' :: st) 0). cbn [volume hd] in *.
    set (v := e' * volume ext) in *. nia.
Qed.

Lemma tight ext : forall st, ok ext st -> Forall (fun e => 0 < e) ext ->
  volume ext * last st 0 = hd 0 ext * hd 0 st -> st = esteps (last st 0) (tl ext).
Proof.
  induction ext as [|e ext IH]; intros [|b st] H P E; try (cbn in H; tauto).
  inversion P as [|? ? Pe P']; subst.
  destruct ext as [|e' ext], st as [|b' st]; try (now destruct H).
  - change (e' * b' <= b /\ ok (e' :: ext) (b' :: st)) in H. destruct H as [Hb H]. pose proof (volume_le _ _ H) as V.
    change (last (b :: b' :: st) 0) with (last (b' :: st) 0) in *. cbn [tl].
    cbn [volume hd] in E, V. set (v := e' * volume ext) in *.
    assert (E' : v * last (b' :: st) 0 = e' * b') by nia.
    assert (Hbe : b = e' * b') by nia.
    rewrite (IH (b' :: st) H P' E') at 1. cbn [tl esteps]. f_equal.
    rewrite stored_volume. change (b = v * last (b' :: st) 0). lia.
Qed.

Lemma continuous_traversal k sz fuel ds ptr : 0 < sz -> ds <> [] -> ok (map d_size ds) (steps k sz ds) ->
  Forall (fun e => 0 < e) (map d_size ds) ->
  Forall (fun e => (N.to_nat e < fuel)%nat) (map d_size ds) ->
  ptr + hd 0 (map d_size ds) * hd 0 (steps k sz ds) < 2 ^ 64 ->
  (N.to_nat (volume (map d_size ds)) < fuel)%nat ->
  volume (map d_size ds) * sz = hd 0 (map d_size ds) * hd 0 (steps k sz ds) ->
  traverse k sz fuel ptr ds = walk fuel sz ptr (add64 ptr (mul64 (volume (map d_size ds)) sz)).
Proof.
  intros Hz E O P F B Ft C.
  rewrite traverse_dot by assumption.
  assert (L : last (steps k sz ds) 0 = sz) by (unfold steps; apply last_last).
  rewrite <- L in C at 1. apply tight in C; [|assumption|assumption]. rewrite L in C.
  rewrite walk_upto; [|exact Hz|exact Ft|].
  - f_equal. rewrite <- row_major_all, map_map. apply map_ext_in. intros is Hi. rewrite C.
    apply all_indices_range, in_range_length in Hi. destruct (map d_size ds) as [|e ext] eqn:Em; [now destruct ds|].
    cbn [tl]. rewrite (dot_dense sz e ext); [reflexivity|]. cbn in Hi. lia.
  - pose proof (volume_le _ _ O) as V. rewrite L in V. lia.
Qed.
