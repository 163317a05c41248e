From Coq Require Import List Bool Arith Lia.
From Verif Require Import NestModel NestSpec.
Import ListNotations.

Lemma same_refl : forall t, same t t = true.
Proof. induction t; cbn; auto. Qed.

Lemma same_eq : forall a b, same a b = true <-> a = b.
Proof.
  split; [|intros ->; apply same_refl].
  revert b. induction a as [| | |a IH|a IH]; intros [| | |b|b] H; cbn in H; try discriminate; auto; f_equal; auto.
Qed.

Lemma same_neq : forall a b, a <> b -> same a b = false.
Proof. intros a b H. destruct (same a b) eqn:E; auto. apply same_eq in E. contradiction. Qed.

Lemma opt_neq : forall t, Opt t <> t.
Proof. induction t as [| | |t IH|t IH]; try discriminate. intro E. injection E as E. auto. Qed.

Lemma std_neq : forall t, Std t <> t.
Proof. induction t as [| | |t IH|t IH]; try discriminate. intro E. injection E as E. auto. Qed.

Lemma constructible_refl : forall t, constructible t t = true.
Proof. induction t; cbn; rewrite ?same_refl; auto. Qed.

Lemma constructible_up : forall t s, constructible t s = true -> constructible (Opt t) s = true.
Proof. intros t s H. cbn [constructible]. rewrite H, orb_true_r. reflexivity. Qed.

Lemma greedy : forall t s, base t = Flag \/ base t = Any -> constructible t s = true.
Proof.
  induction t as [| | |t IH|t IH]; cbn [base]; intros s [H|H]; try discriminate; auto;
  apply constructible_up; apply IH; auto.
Qed.

Definition numeric (t : ty) : Prop := base t = Num \/ base t = Flag.

Lemma num_conv : forall t s, base t = Num -> plain s ->
  constructible t s = true <-> numeric s /\ depth s <= depth t.
Proof.
  unfold numeric, plain.
  induction t as [| | |t IH|t IH]; cbn [base]; intros s B P; try discriminate.
  - destruct s as [| | |s|s]; cbn; split; intros H; try discriminate; auto;
    destruct H as [[H|H] D]; try discriminate; lia.
  - cbn [constructible depth]. rewrite !orb_true_iff, same_eq, (IH s B P). split.
    + intros [[<-|[H D]]|H].
      * cbn. split; [auto|lia].
      * split; [auto|lia].
      * destruct s as [| | |u|u]; try discriminate; [|destruct P].
        apply (IH u B P) in H. cbn. destruct H. split; [auto|lia].
    + intros [H D]. destruct (Nat.eq_dec (depth s) (S (depth t))) as [E|N].
      * right. destruct s as [| | |u|u]; try discriminate. apply (IH u B P). cbn in *. split; [auto|lia].
      * left. right. split; [auto|lia].
Qed.

Lemma num_conv_std : forall t u, base t = Num -> plain u ->
  constructible t (Std u) = true <-> numeric u /\ depth u < depth t.
Proof.
  induction t as [| | |t IH|t IH]; cbn [base]; intros u B P; try discriminate.
  - cbn. split; [discriminate|]. intros [_ D]. lia.
  - cbn [constructible depth]. rewrite !orb_true_iff, (IH u B P), (num_conv t u B P). cbn [same]. split.
    + intros [[H|[H D]]|[H D]]; [discriminate| |]; split; auto; lia.
    + intros [H D]. right. split; [auto|lia].
Qed.

Lemma bases : forall t, plain t -> base t = Num \/ base t = Flag \/ base t = Any.
Proof.
  unfold plain. induction t as [| | |t IH|t IH]; cbn; intros P; auto. destruct P.
Qed.

Lemma conv_exact : forall t s, plain t -> plain s ->
  constructible t s = true <-> base t = Flag \/ base t = Any \/ numeric s /\ depth s <= depth t.
Proof.
  intros t s P Q. destruct (bases t P) as [B|B].
  - rewrite (num_conv t s B Q), B. split; [auto|]. intros [H|[H|H]]; [discriminate|discriminate|auto].
  - split; [tauto|]. intros _. apply greedy. auto.
Qed.

Lemma not_whole : forall t, base t = Num -> constructible t (Opt t) = false.
Proof.
  intros t B. destruct (constructible t (Opt t)) eqn:E; [|reflexivity].
  apply num_conv in E; [|auto|unfold plain; cbn; rewrite B; exact I]. cbn in E. lia.
Qed.

Lemma typed_opt : forall t v, typed (Opt t) v -> exists o, v = VOpt o /\ match o with Some x => typed t x | None => True end.
Proof. intros t [| | |o|o] H; cbn in H; try destruct H. exists o. auto. Qed.

Lemma typed_std : forall t v, typed (Std t) v -> exists o, v = VStd o /\ match o with Some x => typed t x | None => True end.
Proof. intros t [| | |o|o] H; cbn in H; try destruct H. exists o. auto. Qed.

Lemma whole_settled : forall t s c, settled c -> whole t s c = false.
Proof. intros t s [] H; cbn in *; tauto. Qed.

Lemma whole_le : forall t s c, constructible t s = false -> whole t s c = false.
Proof. intros t s [] H; cbn; auto. Qed.

Lemma inner_settled : forall c, settled (inner c).
Proof. intros []; exact I. Qed.

Lemma build_opt : forall t u c o, build (Opt t) (Opt u) c (VOpt o) =
  if whole t (Opt u) c then stored (build t (Opt u) c (VOpt o))
  else if same t u then Some (VOpt o)
  else if constructible t u then
    match o with None => Some (VOpt None) | Some x => stored (build t u (inner c) x) end
  else if constructible t (Opt u) then stored (build t (Opt u) c (VOpt o)) else None.
Proof. reflexivity. Qed.

Lemma build_std : forall t u c o, build (Opt t) (Std u) c (VStd o) =
  if whole t (Std u) c then stored (build t (Std u) c (VStd o))
  else if constructible t u then
    match o with None => Some (VOpt None) | Some x => stored (build t u (inner c) x) end
  else if constructible t (Std u) then stored (build t (Std u) c (VStd o)) else None.
Proof. reflexivity. Qed.

Lemma build_other : forall t s c v, (match s with Opt _ | Std _ => False | _ => True end) ->
  build (Opt t) s c v = if constructible t s then stored (build t s c v) else None.
Proof. intros t [| | |s|s] c v H; try destruct H; reflexivity. Qed.

(* a construction succeeds exactly if the types allow it, and gives a value of the type *)
Lemma build_typed : forall t s c v, plain t -> typed s v ->
  if constructible t s then exists w, build t s c v = Some w /\ typed t w else build t s c v = None.
Proof.
  unfold plain. induction t as [| | |t IH|t IH]; intros s c v P T.
  - destruct s as [| | |s|s], v; cbn in *; try tauto; eauto.
  - destruct s as [| | |s|s], v; cbn in *; try tauto; eauto.
  - cbn [constructible]. assert (H : typed Any (VAny (Some (s, v)))) by exact T.
    destruct s as [| | |s|s], c; cbn [build]; eauto.
  - cbn [base] in P.
    assert (W : forall s' c' v', typed s' v' -> constructible t s' = true ->
      exists w, stored (build t s' c' v') = Some w /\ typed (Opt t) w).
    { intros s' c' v' T' E. specialize (IH s' c' v' P T'). rewrite E in IH.
      destruct IH as (w & -> & Tw). exists (VOpt (Some w)). split; [reflexivity|exact Tw]. }
    destruct s as [| | |u|u].
    1-3: rewrite build_other by exact I; cbn [constructible same]; rewrite orb_false_r; cbn [orb];
      match goal with |- context [if constructible ?a ?b then exists _, _ else _] => destruct (constructible a b) eqn:E end; auto.
    + destruct (typed_opt _ _ T) as (o & -> & To). rewrite build_opt.
      destruct (whole t (Opt u) c) eqn:Ew.
      { assert (E : constructible t (Opt u) = true) by (destruct c; cbn in Ew; try discriminate; auto).
        rewrite (constructible_up _ _ E). auto. }
      destruct (same t u) eqn:Es.
      { apply same_eq in Es. subst u. rewrite constructible_refl. exists (VOpt o). split; [reflexivity|exact To]. }
      cbn [constructible]. change (same (Opt t) (Opt u)) with (same t u). rewrite Es. cbn [orb].
      destruct (constructible t u) eqn:E.
      { rewrite orb_true_r. destruct o as [x|]; [auto|]. exists (VOpt None). split; [reflexivity|exact I]. }
      rewrite orb_false_r. destruct (constructible t (Opt u)) eqn:E'; auto.
    + destruct (typed_std _ _ T) as (o & -> & To). rewrite build_std.
      destruct (whole t (Std u) c) eqn:Ew.
      { assert (E : constructible t (Std u) = true) by (destruct c; cbn in Ew; try discriminate; auto).
        rewrite (constructible_up _ _ E). auto. }
      cbn [constructible same]. cbn [orb].
      destruct (constructible t u) eqn:E.
      { rewrite orb_true_r. destruct o as [x|]; [auto|]. exists (VOpt None). split; [reflexivity|exact I]. }
      rewrite orb_false_r. destruct (constructible t (Std u)) eqn:E'; auto.
  - destruct P.
Qed.

Lemma build_some : forall t s c v, plain t -> typed s v -> constructible t s = true ->
  exists w, build t s c v = Some w /\ typed t w.
Proof. intros t s c v P T E. pose proof (build_typed t s c v P T) as H. rewrite E in H. exact H. Qed.

Lemma build_copy : forall t c v, typed t v -> settled c \/ base t = Num -> build t t c v = Some v.
Proof.
  intros t c v T H. destruct t as [| | |t|t].
  - destruct v; cbn in T; try destruct T. reflexivity.
  - destruct v; cbn in T; try destruct T. reflexivity.
  - destruct H as [H|H]; [|discriminate]. destruct c; cbn in H; try destruct H; reflexivity.
  - destruct (typed_opt _ _ T) as (o & -> & To). rewrite build_opt, same_refl.
    replace (whole t (Opt t) c) with false; [reflexivity|symmetry].
    destruct H as [H|H]; [apply whole_settled; auto|apply whole_le, not_whole; exact H].
  - cbn. rewrite same_refl. reflexivity.
Qed.

Lemma plain_opt : forall t, plain (Opt t) <-> plain t.
Proof. reflexivity. Qed.

Lemma make_deepen : forall t c v, plain t -> typed t v -> settled c -> make t c v = Some (deepen t v).
Proof.
  unfold make. induction t as [| | |t IH|t IH]; intros c v P T S.
  1-3: rewrite build_other by exact I; rewrite constructible_refl, build_copy by auto; reflexivity.
  - destruct (typed_opt _ _ T) as (o & -> & To). rewrite build_opt, whole_settled by exact S.
    rewrite (same_neq _ _ (opt_neq t)), (constructible_up _ _ (constructible_refl t)).
    destruct o as [x|]; [|reflexivity]. rewrite (IH (inner c) x P To (inner_settled c)). reflexivity.
  - destruct P.
Qed.

Lemma make_variable : forall t c v, plain t -> typed t v -> ~ settled c -> base t = Num -> make t c v = Some (VOpt (Some v)).
Proof.
  unfold make. intros t c v P T S B. destruct t as [| | |t|t]; try discriminate.
  - rewrite build_other by exact I. rewrite constructible_refl, build_copy by auto. reflexivity.
  - destruct (typed_opt _ _ T) as (o & -> & To). rewrite build_opt.
    replace (whole (Opt t) (Opt t) c) with true
      by (destruct c; cbn [settled whole] in *; try tauto; symmetry; apply constructible_refl).
    rewrite build_copy by auto. reflexivity.
Qed.

Lemma core_deepen : forall t v, typed t v -> core (Opt t) (deepen t v) = core t v.
Proof.
  induction t as [| | |t IH|t IH]; intros v T; try reflexivity.
  destruct (typed_opt _ _ T) as ([x|] & -> & To); [|reflexivity]. exact (IH x To).
Qed.

Lemma flatten_is_core : forall t v, typed (Opt t) v -> flatten t v = VOpt (core (Opt t) v).
Proof.
  induction t as [| | |t IH|t IH]; intros v T; destruct (typed_opt _ _ T) as ([x|] & -> & To); try reflexivity.
  exact (IH x To).
Qed.

Lemma convert_follows : forall t u c o, plain t -> typed (Opt u) (VOpt o) -> t <> u -> constructible t u = true ->
  settled c \/ constructible t (Opt u) = false ->
  exists r, build (Opt t) (Opt u) c (VOpt o) = Some r /\
    follows (fun x w => build t u (inner c) x = Some w /\ typed t w) o r.
Proof.
  intros t u c o P T N C H. rewrite build_opt, (same_neq _ _ N), C.
  replace (whole t (Opt u) c) with false
    by (symmetry; destruct H as [H|H]; [apply whole_settled; auto|apply whole_le; auto]).
  destruct o as [x|]; cbn [follows].
  - destruct (build_some t u (inner c) x P T C) as (w & E & Tw). rewrite E. cbn. eauto 6.
  - eauto.
Qed.

Lemma convert_std : forall t u c o, plain t -> typed (Std u) (VStd o) -> constructible t u = true ->
  settled c \/ constructible t (Std u) = false ->
  exists r, build (Opt t) (Std u) c (VStd o) = Some r /\
    follows (fun x w => build t u (inner c) x = Some w /\ typed t w) o r.
Proof.
  intros t u c o P T C H. rewrite build_std, C.
  replace (whole t (Std u) c) with false
    by (symmetry; destruct H as [H|H]; [apply whole_settled; auto|apply whole_le; auto]).
  destruct o as [x|]; cbn [follows].
  - destruct (build_some t u (inner c) x P T C) as (w & E & Tw). rewrite E. cbn. eauto 6.
  - eauto.
Qed.

Lemma assign_builds : forall t u c old new r, plain t -> typed (Opt t) (VOpt old) -> typed (Opt u) (VOpt new) ->
  assign t u c old new = Some r -> build (Opt t) (Opt u) (inner c) (VOpt new) = Some r.
Proof.
  induction t as [| | |t IH|t IH]; intros u c old new r P To Tn H; [| | | |destruct P];
  unfold assign in H; fold assign in H; rewrite build_opt, whole_settled by apply inner_settled;
  match type of H with context [same ?a u] => destruct (same a u) eqn:Es; [exact H|] end;
  match type of H with context [constructible ?a u] => destruct (constructible a u) eqn:Ec; [|discriminate] end;
  (destruct new as [x|]; [|destruct old; exact H]);
  (destruct old as [y|]; [|destruct c; exact H]).
  - destruct (implicit Num u); [|discriminate]. destruct c; exact H.
  - destruct (implicit Flag u); [|discriminate]. destruct c; exact H.
  - destruct c; exact H.
  - destruct u as [| | |u|u].
    1-3: match type of H with context [implicit ?a ?b] => destruct (implicit a b); [|discriminate] end; destruct c; exact H.
    + change (typed (Opt t) y) in To. change (typed (Opt u) x) in Tn.
      destruct (typed_opt _ _ To) as (y' & -> & Ty). destruct (typed_opt _ _ Tn) as (x' & -> & Tx).
      destruct (assign t u (inner c) y' x') as [w|] eqn:E; [|discriminate].
      apply IH in E; auto. cbn [inner]. replace (inner (inner c)) with (inner c) in * by (destruct c; reflexivity).
      rewrite E. exact H.
    + match type of H with context [implicit ?a ?b] => destruct (implicit a b); [|discriminate] end; destruct c; exact H.
Qed.

Lemma implicit_num : forall t s, base t = Num -> s = Num \/ s = Flag -> implicit t s = true.
Proof.
  induction t as [| | |t IH|t IH]; cbn [base]; intros s B H; try discriminate; [destruct H as [-> | ->]; reflexivity|].
  cbn [implicit]. auto.
Qed.

Lemma assign_compiles : forall t u c old new, base t = Num -> plain u -> typed (Opt t) (VOpt old) -> typed (Opt u) (VOpt new) ->
  constructible t u = true -> exists r, assign t u c old new = Some r.
Proof.
  induction t as [| | |t IH|t IH]; intros u c old new B Pu To Tn C; try discriminate;
  unfold assign; fold assign; rewrite C;
  (assert (P : plain u -> plain u) by auto);
  match goal with |- context [same ?a u] => destruct (same a u) eqn:Es; [eauto|] end;
  (destruct new as [x|]; [|destruct old; eauto]).
  - destruct (build_some Num u (inner c) x I Tn C) as (w & E & Tw). rewrite E.
    destruct old as [y|]; [|cbn; eauto].
    destruct u; try discriminate; cbn; eauto.
  - assert (Pt : plain (Opt t)) by (unfold plain; cbn in *; rewrite B; exact I).
    destruct (build_some (Opt t) u (inner c) x Pt Tn C) as (w & E & Tw).
    destruct old as [y|]; [|rewrite E; cbn; eauto].
    destruct u as [| | |u|u].
    1-2: rewrite (implicit_num (Opt t) _ B) by auto; rewrite E; cbn; eauto.
    + apply num_conv in C; [|exact B|exact I]. destruct C as [[C|C] _]; discriminate.
    + change (typed (Opt t) y) in To. change (typed (Opt u) x) in Tn.
      destruct (typed_opt _ _ To) as (y' & -> & Ty). destruct (typed_opt _ _ Tn) as (x' & -> & Tx).
      assert (C' : constructible t u = true).
      { apply num_conv; [exact B|exact Pu|]. apply num_conv in C; [|exact B|exact Pu].
        unfold numeric in *. cbn in C. destruct C. split; [auto|lia]. }
      destruct (IH u (inner c) y' x' B Pu Ty Tx C') as (r & ->). cbn. eauto.
    + destruct Pu.
Qed.

Lemma filter_keeps : forall t c p o, plain t -> typed (Opt t) (VOpt o) -> settled c \/ base t = Num ->
  filter t c p o = Some (VOpt (match o with Some x => if p x then Some x else None | None => None end)).
Proof.
  intros t c p [x|] P T H; [|reflexivity]. cbn [filter]. destruct (p x); [|reflexivity].
  apply build_copy; auto.
Qed.

Lemma std_round : forall t c o, plain t -> typed (Opt t) (VOpt o) -> settled c \/ base t = Num ->
  build (Opt t) (Std t) c (to_std t o) = Some (VOpt o).
Proof.
  intros t c o P T H.
  assert (E : to_std t o = VStd o) by (destruct t; try reflexivity; destruct P).
  rewrite E, build_std, constructible_refl.
  replace (whole t (Std t) c) with false.
  - destruct o as [x|]; [|reflexivity]. rewrite build_copy; auto. left. apply inner_settled.
  - symmetry. destruct H as [H|H]; [apply whole_settled; auto|]. apply whole_le.
    destruct (constructible t (Std t)) eqn:C; [|reflexivity].
    apply num_conv_std in C; auto. lia.
Qed.

Lemma core_num : forall t s c v w, base t = Num -> plain s -> typed s v -> build t s c v = Some w ->
  core t w = option_map (fun x => VNum (amount x)) (core s v).
Proof.
  induction t as [| | |t IH|t IH]; intros s c v w B P T E; try discriminate.
  - destruct s as [| | |s|s], v as [n|[]|a|o|o]; cbn in T; try destruct T; try discriminate; cbn in E; injection E as <-; reflexivity.
  - cbn [base] in B.
    assert (W : forall s c v w, plain s -> typed s v -> stored (build t s c v) = Some w ->
      core (Opt t) w = option_map (fun x => VNum (amount x)) (core s v)).
    { clear s c v w P T E. intros s c v w P T E. destruct (build t s c v) as [y|] eqn:Ey; [|discriminate].
      injection E as <-. exact (IH s c v y B P T Ey). }
    destruct s as [| | |u|u].
    1-3: rewrite build_other in E by exact I;
      match type of E with (if ?b then _ else _) = _ => destruct b; [|discriminate] end; eapply W; eassumption.
    + destruct (typed_opt _ _ T) as (o & -> & To). rewrite build_opt in E.
      destruct (whole t (Opt u) c); [eapply W; eassumption|].
      destruct (same t u) eqn:Es.
      { apply same_eq in Es. subst u. injection E as <-. destruct o as [x|]; [|reflexivity].
        change (core t x = option_map (fun x => VNum (amount x)) (core t x)).
        assert (X : build t t ConstL x = Some x).
        { apply build_copy; auto. }
        exact (IH t ConstL x x B P To X). }
      destruct (constructible t u).
      { destruct o as [x|].
        - change (core (Opt u) (VOpt (Some x))) with (core u x). eapply W; eassumption.
        - injection E as <-. reflexivity. }
      destruct (constructible t (Opt u)); [|discriminate]. eapply W; eassumption.
    + destruct P.
Qed.

Lemma core_flag : forall t s c v w, base t = Flag -> s = Num \/ s = Flag -> typed s v -> build t s c v = Some w ->
  core t w = Some (VFlag (negb (amount v =? 0))).
Proof.
  induction t as [| | |t IH|t IH]; intros s c v w B P T E; try discriminate.
  - destruct P as [-> | ->], v as [n|[]|a|o|o]; cbn in T; try destruct T; cbn in E; injection E as <-; reflexivity.
  - rewrite build_other in E by (destruct P as [-> | ->]; exact I).
    destruct (constructible t s); [|discriminate]. destruct (build t s c v) as [y|] eqn:Ey; [|discriminate].
    injection E as <-. exact (IH s c v y B P T Ey).
Qed.
