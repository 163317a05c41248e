(* Proofs about optional pointers. *)
From Coq Require Import List Bool Arith Lia.
From Verif Require Import LifeModel OptModel OptSpec OptProofs PtrModel PtrSpec.
Import ListNotations.

Definition Rp (m : mem) (st : state nat) : Prop := forall i, st i = option_map kept (m i).

Lemma Rp_start : Rp none nothing.
Proof. intro i. reflexivity. Qed.

Lemma R_some m st i : Rp m st -> st i <> None -> exists p, m i = Some p /\ st i = Some (kept p).
Proof. intros H E. specialize (H i). destruct (m i) as [p|]; [|contradiction]. eauto. Qed.

Lemma R_none m st i : Rp m st -> st i = None -> m i = None.
Proof. intros H E. specialize (H i). destruct (m i); [|reflexivity]. rewrite E in H. discriminate. Qed.

Lemma upd_same m i x : upd m i x i = x.
Proof. unfold upd. rewrite Nat.eqb_refl. reflexivity. Qed.
Lemma upd_other m i x k : k <> i -> upd m i x k = m k.
Proof. intro E. unfold upd. apply Nat.eqb_neq in E. rewrite E. reflexivity. Qed.

Definition works_p (o : pop) (m : mem) (st : state nat) : Prop :=
  exists m', exec_p o m = Some m' /\ Rp m' (effect_p o st).

Lemma eqb_cases i j : (i =? j) = true /\ i = j \/ (i =? j) = false /\ i <> j.
Proof. destruct (i =? j) eqn:E; [left|right]; split; auto; [apply Nat.eqb_eq|apply Nat.eqb_neq]; exact E. Qed.

(* everything is settled by the cells of the one or two variables concerned *)
Ltac fin H :=
  let k := fresh "k" in
  intro k; unfold new_p, put, upd;
  repeat (match goal with |- context [?a =? ?b] =>
    destruct (eqb_cases a b) as [[-> ->]|[-> ?]] end);
  cbn [option_map kept keep_if through] in *; try solve [reflexivity | congruence | apply H | rewrite H; congruence].

Lemma one_step o m st : Rp m st -> legal_p o st -> works_p o m st.
Proof.
  intros H L. unfold works_p.
  destruct o as [[i|i v|i j|i j|i j p|i j p|i j f|i|i v|i j|i|i j|i j|i j]|i p];
    cbn [legal_p legal exec_p effect_p effect] in *; unfold exists_in in *.
  - pose proof (R_none _ _ _ H L) as E. unfold create_p. rewrite E. eexists; split; [reflexivity|]. fin H.
  - pose proof (R_none _ _ _ H L) as E. unfold create_p, construct_p, ptr, new_p. rewrite E, upd_same.
    eexists; split; [reflexivity|]. fin H.
  - destruct L as [L1 L2]. pose proof (R_none _ _ _ H L1) as E. destruct (R_some _ _ _ H L2) as (q & Eq & Sq).
    assert (i <> j) by congruence.
    unfold create_p, copy_constructor_p, construct_p, ptr, new_p. rewrite E, (upd_other _ _ _ j), Eq by auto.
    destruct q; cbn [stored negb Nat.eqb]; rewrite ?upd_same; (eexists; split; [reflexivity|]); fin H.
  - destruct L as [L1 L2]. pose proof (R_none _ _ _ H L1) as E. destruct (R_some _ _ _ H L2) as (q & Eq & Sq).
    assert (i <> j) by congruence.
    unfold create_p, move_constructor_p, destroy_p, construct_p, ptr, new_p. rewrite E, (upd_other _ _ _ j), Eq by auto.
    destruct q; cbn [stored negb Nat.eqb]; rewrite ?upd_same, ?(upd_other _ _ _ j), ?Eq by auto;
      cbn [stored negb Nat.eqb]; (eexists; split; [reflexivity|]); fin H.
  - destruct L as [L1 L2]. pose proof (R_none _ _ _ H L1) as E. destruct (R_some _ _ _ H L2) as (q & Eq & Sq).
    assert (i <> j) by congruence.
    unfold create_p, exists_p, copy_constructor_p, construct_p, ptr, new_p. rewrite E, (upd_other _ _ _ j), Eq by auto.
    destruct q; cbn [stored negb Nat.eqb andb]; rewrite ?upd_same;
      [eexists; split; [reflexivity|]; rewrite Sq; fin H|].
    destruct (p (S q)) eqn:Ep; (eexists; split; [reflexivity|]); rewrite Sq; cbn [kept option_map keep_if]; rewrite Ep; fin H.
  - destruct L as [L1 L2]. pose proof (R_none _ _ _ H L1) as E. destruct (R_some _ _ _ H L2) as (q & Eq & Sq).
    assert (i <> j) by congruence.
    unfold create_p, exists_p, move_constructor_p, destroy_p, construct_p, ptr, new_p. rewrite E, (upd_other _ _ _ j), Eq by auto.
    rewrite Sq. destruct q; cbn [stored negb Nat.eqb andb kept]; rewrite ?upd_same;
      [eexists; split; [reflexivity|]; fin H|].
    destruct (p (S q)) eqn:Ep; rewrite ?(upd_other _ _ _ j), ?Eq by auto; cbn [stored negb Nat.eqb];
      (eexists; split; [reflexivity|]); fin H.
  - destruct L as [L1 L2]. pose proof (R_none _ _ _ H L1) as E. destruct (R_some _ _ _ H L2) as (q & Eq & Sq).
    assert (i <> j) by congruence.
    unfold create_p, map_p, construct_p, ptr, new_p. rewrite E, (upd_other _ _ _ j), Eq by auto.
    rewrite Sq. destruct q; cbn [stored negb Nat.eqb kept option_map]; rewrite ?upd_same;
      (eexists; split; [reflexivity|]); fin H.
  - destruct (R_some _ _ _ H L) as (q & Eq & Sq). unfold destroy_p, ptr. rewrite Eq.
    destruct q; cbn [stored negb Nat.eqb]; (eexists; split; [reflexivity|]); fin H.
  - destruct (R_some _ _ _ H L) as (q & Eq & Sq). unfold emplace_p, destroy_p, construct_p, ptr. rewrite Eq.
    destruct q; cbn [stored negb Nat.eqb]; rewrite ?upd_same, ?Eq; (eexists; split; [reflexivity|]); fin H.
  - destruct L as [L1 L2]. destruct (R_some _ _ _ H L1) as (p & Ep & Sp). destruct (R_some _ _ _ H L2) as (q & Eq & Sq).
    unfold emplace_from_p, destroy_p, construct_p, ptr. rewrite Ep.
    destruct (eqb_cases i j) as [[-> ->]|[-> N]].
    + destruct p; cbn [stored negb Nat.eqb]; rewrite ?upd_same, ?Ep; (eexists; split; [reflexivity|]); fin H.
    + destruct p; cbn [stored negb Nat.eqb]; rewrite ?upd_same, ?(upd_other _ _ _ j), ?Ep, ?Eq by auto;
        (eexists; split; [reflexivity|]); fin H.
  - destruct (R_some _ _ _ H L) as (q & Eq & Sq). unfold destroy_p, ptr. rewrite Eq.
    destruct q; cbn [stored negb Nat.eqb]; (eexists; split; [reflexivity|]); fin H.
  - destruct L as [L1 L2]. destruct (R_some _ _ _ H L1) as (p & Ep & Sp). destruct (R_some _ _ _ H L2) as (q & Eq & Sq).
    unfold assign_p, destroy_p, construct_p, ptr. rewrite Ep, Eq.
    destruct (eqb_cases i j) as [[_ ->]|[_ N]].
    + destruct q; [assert (p = 0) by congruence; subst p|assert (p = S q) by congruence; subst p];
      cbn [stored negb Nat.eqb andb]; rewrite ?Ep; cbn [stored negb Nat.eqb andb]; (eexists; split; [reflexivity|]); fin H.
    + destruct p, q; cbn [stored negb Nat.eqb andb]; rewrite ?(upd_other _ _ _ j), ?upd_same, ?Ep, ?Eq by auto;
        cbn [stored negb Nat.eqb andb]; (eexists; split; [reflexivity|]); fin H.
  - destruct L as [L1 L2]. destruct (R_some _ _ _ H L1) as (p & Ep & Sp). destruct (R_some _ _ _ H L2) as (q & Eq & Sq).
    unfold assign_p, destroy_p, construct_p, ptr. rewrite Ep, Eq.
    destruct (eqb_cases i j) as [[_ ->]|[_ N]].
    + destruct q; [assert (p = 0) by congruence; subst p|assert (p = S q) by congruence; subst p];
      cbn [stored negb Nat.eqb andb]; rewrite ?Ep; cbn [stored negb Nat.eqb andb]; (eexists; split; [reflexivity|]); rewrite ?Sq; fin H.
    + destruct p, q; cbn [stored negb Nat.eqb andb]; rewrite ?(upd_other _ _ _ j), ?upd_same, ?Ep, ?Eq by auto;
        cbn [stored negb Nat.eqb andb]; (eexists; split; [reflexivity|]); rewrite ?Sq; fin H.
  - destruct L as [L1 L2]. destruct (R_some _ _ _ H L1) as (p & Ep & Sp). destruct (R_some _ _ _ H L2) as (q & Eq & Sq).
    unfold swap_p, move_constructor_p, destroy_p, construct_p, ptr. rewrite Ep, Eq, Sq.
    destruct (eqb_cases i j) as [[_ ->]|[_ N]].
    + destruct q; [assert (p = 0) by congruence; subst p|assert (p = S q) by congruence; subst p];
      cbn [stored negb Nat.eqb andb kept]; rewrite ?Ep; cbn [stored negb Nat.eqb andb]; (eexists; split; [reflexivity|]); fin H.
    + destruct p, q; cbn [stored negb Nat.eqb andb kept]; rewrite ?(upd_other _ _ _ j), ?upd_same, ?Ep, ?Eq by auto;
        cbn [stored negb Nat.eqb andb]; (eexists; split; [reflexivity|]); fin H.
  - destruct (R_some _ _ _ H L) as (q & Eq & Sq). unfold ptr. rewrite Eq, Sq.
    destruct q; cbn [stored negb Nat.eqb kept option_map through]; (eexists; split; [reflexivity|]); fin H.
Qed.

Lemma Rp_seen m st : Rp m st -> seen_p m st.
Proof.
  intro H. split.
  - intros i c E. pose proof (H i) as F. rewrite E in F. unfold get_p, empty_p, get_or_p, exists_p.
    destruct (m i) as [[|p]|]; try discriminate; injection F as ->; cbn; auto.
  - intros i v E. pose proof (H i) as F. rewrite E in F. destruct (m i) as [[|p]|]; discriminate || (injection F as ->; discriminate).
Qed.

Theorem histories_p l : forall m st, Rp m st -> all_legal_p l st ->
  exists m', run_p l m = Some m' /\ Rp m' (effects_p l st).
Proof.
  induction l as [|o l IH]; intros m st H L; [exists m; auto|].
  destruct L as [L1 L2]. destruct (one_step o m st H L1) as (m' & E & H').
  cbn [run_p effects_p]. rewrite E. apply IH; assumption.
Qed.

(* --- like any other optional when nothing is null --- *)

Definition no_null_in (st : state nat) : Prop := forall i v, st i = Some (Some v) -> v <> 0.

Lemma kept_no p : p <> 0 -> kept p = Some p.
Proof. destruct p; [contradiction|reflexivity]. Qed.

Lemma put_cases (st : state nat) i x k : k = i /\ put st i x k = x \/ k <> i /\ put st i x k = st k.
Proof. unfold put. destruct (eqb_cases k i) as [[-> ->]|[-> ?]]; auto. Qed.

Lemma same_effect o st st' : (forall k, st' k = st k) -> legal o st -> no_null o -> no_null_in st ->
  legal_p (Plain o) st' /\ (forall k, effect_p (Plain o) st' k = effect (fun p => p) o st k) /\
  no_null_in (effect (fun p => p) o st).
Proof.
  intros X L N Z.
  assert (Zp : forall i x, (forall v, x = Some (Some v) -> v <> 0) -> no_null_in (put st i x)).
  { intros i x Hx k v E. destruct (put_cases st i x k) as [[-> F]|[_ F]]; rewrite F in E; [apply Hx; exact E|apply (Z _ _ E)]. }
  assert (P : forall i x k, put st' i x k = put st i x k) by (intros; unfold put; rewrite X; reflexivity).
  destruct o as [i|i v|i j|i j|i j p|i j p|i j f|i|i v|i j|i|i j|i j|i j];
    cbn [legal legal_p effect effect_p no_null] in *; unfold exists_in in *; repeat rewrite X.
  - split; [exact L|]. split; [intro k; apply P|]. apply Zp. discriminate.
  - split; [exact L|]. split; [intro k; rewrite (kept_no v N); apply P|]. apply Zp. intros w E; congruence.
  - split; [exact L|]. split; [intro k; apply P|]. apply Zp. apply Z.
  - split; [exact L|]. split; [intro k; unfold put; rewrite X; reflexivity|].
    intros k v E. unfold put in E. destruct (k =? i); [apply (Z _ _ E)|]. destruct (k =? j); [discriminate|apply (Z _ _ E)].
  - split; [exact L|]. split; [intro k; apply P|]. apply Zp. intros v E.
    destruct (st j) as [[w|]|] eqn:Ej; cbn in E; try discriminate.
    destruct (p w); [|discriminate]. injection E as <-. apply (Z _ _ Ej).
  - split; [exact L|]. split.
    + intro k. destruct (st j) as [[w|]|]; [destruct (p w)| |]; try apply P. unfold put. rewrite X. reflexivity.
    + destruct (st j) as [[w|]|] eqn:Ej; [destruct (p w)| |]; try (apply Zp; discriminate).
      intros k v E. unfold put in E. destruct (k =? i); [injection E as <-; apply (Z _ _ Ej)|].
      destruct (k =? j); [discriminate|apply (Z _ _ E)].
  - split; [exact L|]. split.
    + intro k. destruct (st j) as [[w|]|] eqn:Ej; try apply P. cbn [option_map]. rewrite (kept_no (f w)); [apply P|].
      apply N. apply (Z _ _ Ej).
    + apply Zp. intros v E. destruct (st j) as [[w|]|] eqn:Ej; cbn in E; try discriminate.
      injection E as <-. apply N. apply (Z _ _ Ej).
  - split; [exact L|]. split; [intro k; apply P|]. apply Zp. discriminate.
  - split; [exact L|]. split; [intro k; rewrite (kept_no v N); apply P|]. apply Zp. intros w E; congruence.
  - destruct L as (L1 & (v & L2) & L3). split; [split; congruence|]. split.
    + intro k. apply Nat.eqb_neq in L3. rewrite L3. apply P.
    + apply Zp. apply Z.
  - split; [exact L|]. split; [intro k; apply P|]. apply Zp. discriminate.
  - split; [exact L|]. split; [intro k; apply P|]. apply Zp. apply Z.
  - split; [exact L|]. split.
    + intro k. unfold put. rewrite X. reflexivity.
    + intros k v E. unfold put in E. destruct (k =? i); [apply (Z _ _ E)|]. destruct (k =? j); [|apply (Z _ _ E)].
      destruct (st j) as [[w|]|] eqn:Ej; cbn in E; try discriminate. injection E as <-. apply (Z _ _ Ej).
  - destruct L as (L1 & L2 & L3). split; [split; congruence|]. split.
    + intro k. destruct (st j) as [[w|]|] eqn:Ej; unfold put; rewrite ?X; try reflexivity.
      destruct (eqb_cases k i) as [[-> ->]|[-> Ni]]; [reflexivity|].
      destruct (eqb_cases k j) as [[-> ->]|[-> Nj]]; [|reflexivity].
      rewrite Ej. destruct (st i) as [[v|]|] eqn:Ei; [|reflexivity|contradiction].
      exfalso. apply L3. split; [exists v; exact Ei|exact Ej].
    + intros k v E. unfold put in E. destruct (k =? i); [apply (Z _ _ E)|]. destruct (k =? j); apply (Z _ _ E).
Qed.

Lemma same_effects l : forall st st', (forall k, st' k = st k) ->
  all_legal (fun p => p) l st -> Forall no_null l -> no_null_in st ->
  all_legal_p (map Plain l) st' /\ forall k, effects_p (map Plain l) st' k = effects (fun p => p) l st k.
Proof.
  induction l as [|o l IH]; intros st st' X L N Z; [split; [exact I|exact X]|].
  destruct L as [L1 L2]. inversion N as [|? ? N1 N2]; subst.
  destruct (same_effect o st st' X L1 N1 Z) as (A & B & C).
  destruct (IH _ _ B L2 N2 C) as (D & E). cbn [map all_legal_p effects_p effects]. auto.
Qed.

(* --- flatten --- *)

Lemma flatten_full n V : forall (o : nested n V) v, flatten n o = Some v <-> all_full n o v.
Proof.
  induction n as [|n IH]; intros o v; cbn; [reflexivity|].
  destruct o as [x|]; [rewrite IH|].
  - split; [eauto|intros (y & E & F); congruence].
  - split; [discriminate|intros (y & E & F); discriminate].
Qed.

Lemma flatten_move_same n V : forall o : nested n V, fst (flatten_move n o) = flatten n o /\ emptied n o (snd (flatten_move n o)).
Proof.
  induction n as [|n IH]; intro o; cbn; [auto|].
  destruct o as [x|]; cbn; [|auto]. destruct (IH x) as [A B]. split; [exact A|]. eauto.
Qed.
