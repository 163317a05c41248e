(* Proofs about programs over transform iterators. *)
From Coq Require Import List Bool Arith ZArith Lia.
From Verif Require Import TranModel TranSpec.
Import ListNotations.
Set Default Proof Using "Type".

Section One.
Context {A B : Type}.
Variable f : A -> B.

Definition same (n : nat) (i : option (iter A B)) (k : option nat) : Prop :=
  match i, k with
  | Some i, Some k => pos i = Z.of_nat k /\ fn i = f /\ k <= n
  | None, None => True
  | _, _ => False
  end.
Definition rel (s : shelf B) (w : world A B) : Prop :=
  cells s = map f (data w) /\ forall x, same (length (data w)) (vars w x) (index s x).
Definition matched (a : option (seen B * shelf B)) (b : option (seen B * world A B)) : Prop :=
  match a, b with
  | Some (o, s), Some (o', w) => o = o' /\ rel s w
  | None, None => True
  | _, _ => False
  end.

Lemma rel_put s w x k i : rel s w -> same (length (data w)) (Some i) (Some k) -> rel (put_at B s x k) (set A B w x (Some i)).
Proof.
  intros (D & E) S. split; [exact D|]. intros y. cbn [put_at set vars index data].
  destruct (Nat.eqb y x); [exact S|apply E].
Qed.
Lemma rel_drop s w x : rel s w -> rel (drop B s x) (set A B w x None).
Proof.
  intros (D & E). split; [exact D|]. intros y. cbn [drop set vars index data].
  destruct (Nat.eqb y x); [exact I|apply E].
Qed.
Lemma further_within s w p d k : rel s w -> p = Z.of_nat k ->
  match further B s k d with
  | Some j => within A B w (p + d) = true /\ (p + d)%Z = Z.of_nat j /\ j <= length (data w)
  | None => within A B w (p + d) = false
  end.
Proof.
  intros (D & _) ->. unfold further, within, size. rewrite D, map_length.
  destruct (Z.ltb_spec (Z.of_nat k + d) 0).
  - apply andb_false_iff. left. apply Z.leb_gt. lia.
  - destruct (Nat.ltb_spec (length (data w)) (Z.to_nat (Z.of_nat k + d))).
    + apply andb_false_iff. right. apply Z.leb_gt. lia.
    + split; [|split; [rewrite Z2Nat.id; lia|lia]]. apply andb_true_iff. split; apply Z.leb_le; lia.
Qed.
Lemma shift_further s w i k d : rel s w -> same (length (data w)) (Some i) (Some k) ->
  match further B s k d with
  | Some j => exists i', shift A B w i d = Some i' /\ same (length (data w)) (Some i') (Some j)
  | None => shift A B w i d = None
  end.
Proof.
  intros R (P & F & L). pose proof (further_within s w (pos i) d k R P) as X. unfold shift.
  destruct (further B s k d) as [j|].
  - destruct X as (-> & X & Y). eexists. split; [reflexivity|]. cbn [same pos fn]. auto.
  - now rewrite X.
Qed.
Lemma store_map q a (l : list A) : q < length l ->
  map f (store A q a l) = firstn q (map f l) ++ f a :: skipn (S q) (map f l).
Proof.
  revert q. induction l as [|b l IH]; intros q L; cbn in L; [lia|]. destruct q as [|q]; [reflexivity|].
  cbn [store map firstn skipn app]. f_equal. apply IH. lia.
Qed.
Lemma store_length q a (l : list A) : length (store A q a l) = length l.
Proof. revert q. induction l as [|b l IH]; intros [|q]; cbn; auto. Qed.

Lemma inside_of w k : inside A B w (Z.of_nat k) = (k <? length (data w)).
Proof.
  unfold inside, size. apply eq_true_iff_eq. rewrite andb_true_iff, Z.leb_le, Z.ltb_lt, Nat.ltb_lt. lia.
Qed.

Lemma does_exec o s w : uses A B f o -> rel s w -> matched (does A B f o s) (exec A B o w).
Proof.
  intros U R. pose proof R as (D & E).
  assert (ON : forall x d (g : nat -> nat -> shelf B) (h : iter A B -> iter A B -> world A B),
    (forall i i' k j, same (length (data w)) (Some i) (Some k) -> same (length (data w)) (Some i') (Some j) -> rel (g k j) (h i i')) ->
    matched (on B s x d g) (with1 A B w x (fun i => option_map (fun j => (Nothing, h i j)) (shift A B w i d)))).
  { intros x d g h H. unfold on, with1. pose proof (E x) as Ex.
    destruct (vars w x) as [i|], (index s x) as [k|]; cbn [same] in Ex; try contradiction; [|exact I].
    pose proof (shift_further s w i k d R Ex) as X. destruct (further B s k d) as [j|].
    - destruct X as (i' & -> & S). cbn [option_map matched]. split; [reflexivity|]. now apply H.
    - rewrite X. exact I. }
  assert (ASK : forall x y (g : nat -> nat -> seen B) (h : Z -> Z -> seen B),
    (forall i j, g i j = h (Z.of_nat i) (Z.of_nat j)) -> matched (asks B s x y g) (compare A B w x y h)).
  { intros x y g h H. unfold asks, compare, with1. pose proof (E x) as Ex. pose proof (E y) as Ey.
    destruct (vars w x) as [i|], (index s x) as [k|]; cbn [same] in Ex; try contradiction; [|exact I].
    destruct (vars w y) as [j|], (index s y) as [m|]; cbn [same] in Ey; try contradiction; [|exact I].
    cbn [matched]. destruct Ex as (-> & _), Ey as (-> & _). split; [apply H|exact R]. }
  assert (ST : forall i i' k j x, same (length (data w)) (Some i) (Some k) -> same (length (data w)) (Some i') (Some j) ->
     rel (put_at B s x j) (set A B w x (Some i'))) by (intros; now apply rel_put).
  assert (PO : forall i i' k j z x, same (length (data w)) (Some i) (Some k) -> same (length (data w)) (Some i') (Some j) ->
     rel (put_at B (put_at B s x j) z k) (set A B (set A B w x (Some i')) z (Some i))).
  { intros i i' k j z x S S'. apply rel_put; [now apply rel_put|exact S]. }
  destruct o as [x b g|x y|x y|x y|x|x|z x|z x|x d|x d|z x d|x y|x y|x y|x y|x y|x y|x y|x|q a]; cbn [does exec uses] in *.
  - subst g. pose proof (further_within s w 0%Z b 0 R eq_refl) as X. cbn [Z.add] in X. destruct (further B s 0 b) as [j|].
    + destruct X as (-> & X & Y). cbn [option_map matched]. split; [reflexivity|]. apply rel_put; [exact R|]. cbn [same pos fn]. auto.
    + rewrite X. exact I.
  - unfold with1. pose proof (E y) as Ey.
    destruct (vars w y) as [i|] eqn:Vy, (index s y) as [k|] eqn:Iy; cbn [same] in Ey; try contradiction; [|exact I].
    destruct (Nat.eqb_spec x y) as [->|]; cbn [matched]; (split; [reflexivity|]).
    + split; [exact D|]. intros z. cbn [put_at index]. destruct (Nat.eqb_spec z y) as [->|]; [rewrite Vy; exact Ey|apply E].
    + now apply rel_put.
  - unfold with1. pose proof (E y) as Ey.
    destruct (vars w y) as [i|], (index s y) as [k|]; cbn [same] in Ey; try contradiction; [|exact I].
    destruct (Nat.eqb x y); cbn [matched]; (split; [reflexivity|]); [exact R|]. apply rel_drop. now apply rel_put.
  - unfold with1. pose proof (E x) as Ex. pose proof (E y) as Ey.
    destruct (vars w x) as [i|], (index s x) as [k|]; cbn [same] in Ex; try contradiction; [|exact I].
    destruct (vars w y) as [j|], (index s y) as [m|]; cbn [same] in Ey; try contradiction; [|exact I].
    cbn [matched]. split; [reflexivity|]. apply rel_put; [now apply rel_put|exact Ex].
  - exact (ON x 1%Z _ (fun _ j => set A B w x (Some j)) (fun i i' k j => ST i i' k j x)).
  - exact (ON x (-1)%Z _ (fun _ j => set A B w x (Some j)) (fun i i' k j => ST i i' k j x)).
  - exact (ON x 1%Z _ (fun i j => set A B (set A B w x (Some j)) z (Some i)) (fun i i' k j => PO i i' k j z x)).
  - exact (ON x (-1)%Z _ (fun i j => set A B (set A B w x (Some j)) z (Some i)) (fun i i' k j => PO i i' k j z x)).
  - exact (ON x d _ (fun _ j => set A B w x (Some j)) (fun i i' k j => ST i i' k j x)).
  - exact (ON x (- d)%Z _ (fun _ j => set A B w x (Some j)) (fun i i' k j => ST i i' k j x)).
  - exact (ON x d _ (fun _ j => set A B w z (Some j)) (fun i i' k j => ST i i' k j z)).
  - apply ASK. reflexivity.
  - apply ASK. intros i j. f_equal. apply eq_true_iff_eq. rewrite Nat.eqb_eq, Z.eqb_eq. lia.
  - apply ASK. intros i j. f_equal. f_equal. apply eq_true_iff_eq. rewrite Nat.eqb_eq, Z.eqb_eq. lia.
  - apply ASK. intros i j. f_equal. apply eq_true_iff_eq. rewrite Nat.ltb_lt, Z.ltb_lt. lia.
  - apply ASK. intros i j. f_equal. apply eq_true_iff_eq. rewrite Nat.ltb_lt, Z.gtb_lt. lia.
  - apply ASK. intros i j. f_equal. apply eq_true_iff_eq. rewrite negb_true_iff, Nat.leb_le. rewrite Z.gtb_ltb, Z.ltb_ge. lia.
  - apply ASK. intros i j. f_equal. apply eq_true_iff_eq. rewrite negb_true_iff, Nat.leb_le, Z.ltb_ge. lia.
  - unfold with1. pose proof (E x) as Ex.
    destruct (vars w x) as [i|], (index s x) as [k|]; cbn [same] in Ex; try contradiction; [|exact I].
    destruct Ex as (P & F & L). rewrite P, F, inside_of, Nat2Z.id, D, nth_error_map.
    destruct (Nat.ltb_spec k (length (data w))) as [H|H].
    + destruct (nth_error (data w) k); cbn [option_map matched]; auto.
    + apply nth_error_None in H. rewrite H. exact I.
  - destruct (Z.ltb_spec q 0) as [H|H].
    + assert (X : inside A B w q = false) by (apply andb_false_iff; left; apply Z.leb_gt; lia). rewrite X. exact I.
    + assert (X : inside A B w q = (Z.to_nat q <? length (data w))) by (rewrite <- inside_of, Z2Nat.id by exact H; reflexivity).
      rewrite X, D, map_length.
      destruct (Nat.ltb_spec (Z.to_nat q) (length (data w))) as [L|L]; cbn [matched]; [|exact I].
      split; [reflexivity|]. split.
      * cbn [cells data]. symmetry. now apply store_map.
      * intros y. cbn [vars data index]. rewrite store_length. apply E.
Qed.
Lemma story_run os s w : Forall (uses A B f) os -> rel s w ->
  option_map (fun r => (fst r, map f (snd r))) (run A B os w) = story A B f os s.
Proof.
  intros U. revert s w. induction U as [|o os Uo U IH]; intros s w R; cbn [run story].
  - destruct R as (-> & _). reflexivity.
  - pose proof (does_exec o s w Uo R) as M.
    destruct (does A B f o s) as [[a s']|], (exec A B o w) as [[b w']|]; cbn [matched] in M; try contradiction; [|reflexivity].
    destruct M as (-> & R'). rewrite <- (IH s' w' R'). destruct (run A B os w') as [[l d]|]; reflexivity.
Qed.
End One.

Section Many.
Context {A B : Type}.
Lemma carried_in (os : list (top A B)) c g : In g (carried os c) -> In g (functions os) \/ exists x, c x = Some g.
Proof.
  revert c. induction os as [|o os IH]; intros c H; [contradiction|].
  assert (X : forall c', In g (carried os c') -> (forall x, c' x = Some g -> In g (functions (o :: os)) \/ exists y, c y = Some g) ->
     In g (functions (o :: os)) \/ exists x, c x = Some g).
  { intros c' H' K. destruct (IH c' H') as [F|(x & F)]; [left; destruct o; try exact F; right; exact F|now apply (K x)]. }
  destruct o as [x b f|x y|x y|x y|x|x|z x|z x|x d|x d|z x d|x y|x y|x y|x y|x y|x y|x y|x|q a]; cbn [carried carry] in H;
    try (apply (X c H); intros z' Hz; right; exists z'; exact Hz).
  - apply (X _ H). intros z. unfold bind. destruct (Nat.eqb z x); [|eauto]. intros E. injection E as ->. left. left. reflexivity.
  - apply (X _ H). intros z. unfold bind. destruct (Nat.eqb z x); eauto.
  - apply (X _ H). intros z. destruct (Nat.eqb x y); [eauto|]. unfold bind. destruct (Nat.eqb z y); [discriminate|]. destruct (Nat.eqb z x); eauto.
  - apply (X _ H). intros z. unfold bind. destruct (Nat.eqb z y); [eauto|]. destruct (Nat.eqb z x); eauto.
  - apply (X _ H). intros y. unfold bind. destruct (Nat.eqb y z); eauto.
  - apply (X _ H). intros y. unfold bind. destruct (Nat.eqb y z); eauto.
  - apply (X _ H). intros y. unfold bind. destruct (Nat.eqb y z); eauto.
  - destruct (c x) as [h|] eqn:Cx; [|contradiction]. destruct H as [->|H]; [right; eauto|].
    apply (X c H). eauto.
Qed.

Definition dressed (g : option (A -> B)) (i : option (iter A B)) (j : option (iter A A)) : Prop :=
  match g, i, j with
  | Some g, Some i, Some j => fn i = g /\ pos i = pos j /\ fn j = (fun a => a)
  | None, None, None => True
  | _, _, _ => False
  end.
Definition sim (c : env A B) (w : world A B) (v : world A A) : Prop :=
  data w = data v /\ forall x, dressed (c x) (vars w x) (vars v x).
Lemma sim_set c w v x g i j : sim c w v -> dressed g i j -> sim (bind c x g) (set A B w x i) (set A A v x j).
Proof.
  intros (D & E) X. split; [exact D|]. intros y. unfold bind. cbn [set vars]. destruct (Nat.eqb y x); [exact X|apply E].
Qed.
(* a variable that gets what it carries already *)
Lemma sim_ext c c' w v : sim c w v -> (forall x, c' x = c x) -> sim c' w v.
Proof. intros (D & E) H. split; [exact D|]. intros x. rewrite H. apply E. Qed.

Definition alike (c : env A B) (o : top A B) (a : option (seen B * world A B)) (b : option (seen A * world A A)) : Prop :=
  match a, b with
  | Some (u, w), Some (t, v) =>
      sim (carry o c) w v /\
      match o with
      | Read x => exists g r, c x = Some g /\ u = Value (g r) /\ t = Value r
      | _ => (forall gs l, dress gs (t :: l) = u :: dress gs l)
      end
  | None, None => True
  | _, _ => False
  end.

Lemma exec_alike o c w v : sim c w v -> alike c o (exec A B o w) (exec A A (plain o) v).
Proof.
  intros R. pose proof R as (D & E).
  assert (W : forall p, within A B w p = within A A v p) by (intros; unfold within, size; now rewrite D).
  assert (N : forall p, inside A B w p = inside A A v p) by (intros; unfold inside, size; now rewrite D).
  assert (SH : forall x i j d, vars w x = Some i -> vars v x = Some j ->
    match shift A B w i d, shift A A v j d with
    | Some i', Some j' => dressed (c x) (Some i') (Some j')
    | None, None => True | _, _ => False end).
  { intros x i j d Vx Vx'. pose proof (E x) as Ex. rewrite Vx, Vx' in Ex. destruct (c x) as [g|]; [|contradiction].
    destruct Ex as (F & P & F'). unfold shift. rewrite P, W. destruct (within A A v (pos j + d)); [|exact I].
    cbn [dressed fn pos]. auto. }
  assert (STEP : forall x d o, carry o c = c -> (match o with Read _ => False | _ => True end) ->
    alike c o (step A B w x d) (step A A v x d)).
  { intros x d o' C NR. unfold step, with1. pose proof (E x) as Ex.
    destruct (vars w x) as [i|] eqn:Vx, (vars v x) as [j|] eqn:Vx'; destruct (c x) as [g|] eqn:Cx; cbn [dressed] in Ex; try contradiction; [|exact I].
    pose proof (SH x i j d Vx Vx') as X. destruct (shift A B w i d) as [i'|], (shift A A v j d) as [j'|]; cbn [option_map]; try contradiction; [|exact I].
    cbn [alike]. split.
    - rewrite C. apply (sim_ext (bind c x (c x))); [now apply sim_set|]. intros y. unfold bind. destruct (Nat.eqb_spec y x) as [->|]; reflexivity.
    - destruct o'; try contradiction; reflexivity. }
  assert (POST : forall z x d o, carry o c = bind c z (c x) -> (match o with Read _ => False | _ => True end) ->
    alike c o (post A B w z x d) (post A A v z x d)).
  { intros z x d o' C NR. unfold post, with1. pose proof (E x) as Ex.
    destruct (vars w x) as [i|] eqn:Vx, (vars v x) as [j|] eqn:Vx'; destruct (c x) as [g|] eqn:Cx; cbn [dressed] in Ex; try contradiction; [|exact I].
    pose proof (SH x i j d Vx Vx') as X. destruct (shift A B w i d) as [i'|], (shift A A v j d) as [j'|]; cbn [option_map]; try contradiction; [|exact I].
    cbn [alike]. split.
    - rewrite C. apply (sim_ext (bind (bind c x (c x)) z (Some g))).
      + apply sim_set; [now apply sim_set|exact Ex].
      + intros y. unfold bind. destruct (Nat.eqb y z); [reflexivity|]. destruct (Nat.eqb_spec y x) as [->|]; reflexivity.
    - destruct o'; try contradiction; reflexivity. }
  assert (CMP : forall x y (h : Z -> Z -> seen B) (k : Z -> Z -> seen A) o, carry o c = c -> (match o with Read _ => False | _ => True end) ->
    (forall p q gs l, dress gs (k p q :: l) = h p q :: dress gs l) -> alike c o (compare A B w x y h) (compare A A v x y k)).
  { intros x y h k o' C NR H. unfold compare, with1. pose proof (E x) as Ex. pose proof (E y) as Ey.
    destruct (vars w x) as [i|], (vars v x) as [j|]; destruct (c x) as [g|]; cbn [dressed] in Ex; try contradiction; [|exact I].
    destruct (vars w y) as [i'|], (vars v y) as [j'|]; destruct (c y) as [g'|]; cbn [dressed] in Ey; try contradiction; [|exact I].
    destruct Ex as (_ & -> & _), Ey as (_ & -> & _). cbn [alike]. rewrite C. split; [exact R|].
    destruct o'; try contradiction; apply H. }
  destruct o as [x b f|x y|x y|x y|x|x|z x|z x|x d|x d|z x d|x y|x y|x y|x y|x y|x y|x y|x|q a]; cbn [plain exec].
  - rewrite W. destruct (within A A v b); cbn [alike carry]; [|exact I]. split; [|reflexivity].
    apply sim_set; [exact R|]. cbn [dressed fn pos]. auto.
  - unfold with1. pose proof (E y) as Ey.
    destruct (vars w y) as [i|], (vars v y) as [j|]; destruct (c y) as [g|] eqn:Cy; cbn [dressed] in Ey; try contradiction; [|exact I].
    destruct (Nat.eqb_spec x y) as [->|]; cbn [alike carry]; (split; [|reflexivity]).
    + apply (sim_ext c); [exact R|]. intros z. unfold bind. destruct (Nat.eqb_spec z y) as [->|]; reflexivity.
    + rewrite Cy. now apply sim_set.
  - unfold with1. pose proof (E y) as Ey.
    destruct (vars w y) as [i|], (vars v y) as [j|]; destruct (c y) as [g|] eqn:Cy; cbn [dressed] in Ey; try contradiction; [|exact I].
    destruct (Nat.eqb x y) eqn:Q; cbn [alike carry]; (split; [|reflexivity]); rewrite Q; [exact R|].
    rewrite Cy. apply sim_set; [now apply sim_set|exact I].
  - unfold with1. pose proof (E x) as Ex. pose proof (E y) as Ey.
    destruct (vars w x) as [i|], (vars v x) as [j|]; destruct (c x) as [g|] eqn:Cx; cbn [dressed] in Ex; try contradiction; [|exact I].
    destruct (vars w y) as [i'|], (vars v y) as [j'|]; destruct (c y) as [g'|] eqn:Cy; cbn [dressed] in Ey; try contradiction; [|exact I].
    cbn [alike carry]. split; [|reflexivity]. rewrite Cx, Cy. apply sim_set; [now apply sim_set|exact Ex].
  - now apply STEP.
  - now apply STEP.
  - now apply POST.
  - now apply POST.
  - now apply STEP.
  - now apply STEP.
  - unfold with1. pose proof (E x) as Ex.
    destruct (vars w x) as [i|] eqn:Vx, (vars v x) as [j|] eqn:Vx'; destruct (c x) as [g|] eqn:Cx; cbn [dressed] in Ex; try contradiction; [|exact I].
    pose proof (SH x i j d Vx Vx') as X. destruct (shift A B w i d) as [i'|], (shift A A v j d) as [j'|]; cbn [option_map]; try contradiction; [|exact I].
    cbn [alike carry]. split; [|reflexivity]. now apply sim_set.
  - now apply CMP.
  - now apply CMP.
  - now apply CMP.
  - now apply CMP.
  - now apply CMP.
  - now apply CMP.
  - now apply CMP.
  - unfold with1. pose proof (E x) as Ex.
    destruct (vars w x) as [i|], (vars v x) as [j|]; destruct (c x) as [g|] eqn:Cx; cbn [dressed] in Ex; try contradiction; [|exact I].
    destruct Ex as (F & P & F'). rewrite P, N, D. destruct (inside A A v (pos j)); [|exact I].
    destruct (nth_error (data v) (Z.to_nat (pos j))) as [r|]; cbn [option_map alike carry]; [|exact I].
    split; [exact R|]. exists g, r. rewrite F, F'. auto.
  - rewrite N. destruct (inside A A v q); cbn [alike carry]; [|exact I]. split; [|reflexivity].
    split; [cbn [data]; now rewrite D|exact E].
Qed.
Lemma run_alike os c w v : sim c w v ->
  run A B os w = option_map (fun r => (dress (carried os c) (fst r), snd r)) (run A A (map plain os) v).
Proof.
  revert c w v. induction os as [|o os IH]; intros c w v R; cbn [run map].
  - destruct R as (-> & _). reflexivity.
  - pose proof (exec_alike o c w v R) as X.
    destruct (exec A B o w) as [[u w']|], (exec A A (plain o) v) as [[t v']|]; cbn [alike] in X; try contradiction; [|reflexivity].
    destruct X as (R' & X). rewrite (IH _ _ _ R'). destruct (run A A (map plain os) v') as [[l d]|]; [|reflexivity].
    cbn [option_map fst snd]. f_equal. f_equal.
    destruct o; try (cbn [carried]; rewrite X; reflexivity).
    destruct X as (g & r & Cx & -> & ->). cbn [carried]. rewrite Cx. reflexivity.
Qed.
End Many.
