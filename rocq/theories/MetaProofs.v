(* Proofs about the lists of types. *)
From Coq Require Import List Bool Arith NArith Lia Permutation Sorted.
From Verif Require Import MetaModel MetaSpec.
Import ListNotations.

Ltac ins := cbn [In app]; rewrite ?in_app_iff; cbn [In app]; rewrite ?in_app_iff; cbn [In]; tauto.

Section Proofs.
Context {T : Type}.
Implicit Types (l e : list T) (x : T).

Lemma dup_ok x n : forall e, list_dup x n e = Type_ (repeat x n ++ e).
Proof.
  induction n as [|n IH]; intros e; cbn [list_dup]; [reflexivity|]. rewrite IH. f_equal.
  cbn [repeat app]. clear. induction n as [|n IH]; cbn [repeat app]; [reflexivity|]. rewrite IH. reflexivity.
Qed.

Lemma reverse_ok l : forall e, reverse_list l e = named (rev l ++ e).
Proof.
  induction l as [|h t IH]; intros e; cbn [reverse_list rev]; [reflexivity|]. rewrite IH, <- app_assoc. reflexivity.
Qed.

Lemma push_front_ok x l : forall e, list_push_front x l e = Type_ (x :: e ++ l).
Proof.
  induction l as [|h t IH]; intros e; cbn [list_push_front named]; [rewrite app_nil_r; reflexivity|].
  rewrite IH, <- app_assoc. reflexivity.
Qed.

Lemma push_back_ok x l : forall e, list_push_back l x e = Type_ (e ++ l ++ [x]).
Proof.
  induction l as [|h t IH]; intros e; cbn [list_push_back].
  - destruct e; reflexivity.
  - rewrite IH, <- app_assoc. reflexivity.
Qed.

Lemma cat_second_ok l : forall e, list_cat_second l e = Type_ (e ++ l).
Proof.
  induction l as [|h t IH]; intros e; cbn [list_cat_second]; [rewrite app_nil_r; reflexivity|].
  rewrite IH, <- app_assoc. reflexivity.
Qed.

Lemma cat_ok l1 l2 : forall e, list_cat l1 l2 e = Type_ (e ++ l1 ++ l2).
Proof.
  induction l1 as [|h t IH]; intros e; cbn [list_cat]; [apply cat_second_ok|]. rewrite IH, <- app_assoc. reflexivity.
Qed.

Lemma at_ok l : forall n, list_at l n = match nth_error l n with Some x => Type_ x | None => IllFormed end.
Proof.
  induction l as [|h t IH]; intros [|n]; cbn [list_at head nth_error]; try reflexivity. apply IH.
Qed.

Lemma to_tuple_ok l : forall e, list_to_tuple l e = Type_ (e ++ l).
Proof.
  induction l as [|h t IH]; intros e; cbn [list_to_tuple]; [rewrite app_nil_r; reflexivity|].
  rewrite IH, <- app_assoc. reflexivity.
Qed.

Lemma length_ok l : list_length l = length l.
Proof. induction l as [|h t IH]; cbn [list_length length]; [reflexivity|]. rewrite IH. reflexivity. Qed.

Lemma split_ok l : forall n e, list_split l n e =
  if n <=? length l then Type_ (e ++ firstn n l, skipn n l) else IllFormed.
Proof.
  induction l as [|h t IH]; intros [|n] e; cbn [list_split length firstn skipn Nat.leb bind make_list];
    rewrite ?app_nil_r; try reflexivity.
  rewrite IH, <- app_assoc. reflexivity.
Qed.

Section Same.
Variable same : T -> T -> bool.
Hypothesis same_spec : forall x y, same x y = true <-> x = y.

Lemma find_none l x : forall i, ~ In x l -> list_find same l x i = npos.
Proof.
  induction l as [|h t IH]; intros i N; cbn [list_find]; [reflexivity|].
  destruct (same h x) eqn:E; [apply same_spec in E; subst; destruct N; left; reflexivity|]. apply IH. intros I. apply N. right. exact I.
Qed.

Lemma find_some l1 l2 x : forall i, ~ In x l1 -> list_find same (l1 ++ x :: l2) x i = (i + N.of_nat (length l1))%N.
Proof.
  induction l1 as [|h t IH]; intros i N; cbn [list_find app length].
  - replace (same x x) with true by (symmetry; apply same_spec; reflexivity). lia.
  - destruct (same h x) eqn:E; [apply same_spec in E; subst; destruct N; left; reflexivity|].
    rewrite IH by (intros I; apply N; right; exact I). lia.
Qed.

Lemma in_split_first l x : In x l -> exists l1 l2, l = l1 ++ x :: l2 /\ ~ In x l1.
Proof.
  induction l as [|h t IH]; [intros []|]. intros I. destruct (same h x) eqn:E.
  - apply same_spec in E. subst. exists [], t. auto.
  - assert (h <> x) by (intros ->; assert (same x x = true) by (apply same_spec; reflexivity); congruence).
    destruct I as [I|I]; [congruence|]. destruct (IH I) as (l1 & l2 & -> & N). exists (h :: l1), l2. split; [reflexivity|].
    intros [J|J]; auto.
Qed.

Lemma find_npos l x : (N.of_nat (length l) <= npos)%N -> (list_find same l x 0 = npos <-> ~ In x l).
Proof.
  intros L. split; [|apply find_none]. intros F I. destruct (in_split_first l x I) as (l1 & l2 & -> & N).
  rewrite find_some in F by assumption. rewrite app_length in L. cbn [length] in L. lia.
Qed.

(* the first occurrences, when e was seen before *)
Fixpoint firsts (l e : list T) : list T :=
  match l with
  | [] => []
  | h :: t => if existsb (fun y => same y h) e then firsts t e else h :: firsts t (e ++ [h])
  end.

Lemma existsb_in e x : existsb (fun y => same y x) e = true <-> In x e.
Proof.
  rewrite existsb_exists. split.
  - intros [y [I E]]. apply same_spec in E. subst. exact I.
  - intros I. exists x. split; [exact I|]. apply same_spec. reflexivity.
Qed.

Lemma unique_ok l : forall e, (N.of_nat (length e + length l) <= npos)%N ->
  list_unique same l e = Type_ (e ++ firsts l e).
Proof.
  induction l as [|h t IH]; intros e L; cbn [list_unique firsts make_list bind]; [rewrite app_nil_r; reflexivity|].
  cbn [length] in L. rewrite !IH by (rewrite ?app_length; cbn [length]; lia). cbn [bind].
  destruct (existsb (fun y => same y h) e) eqn:E.
  - apply existsb_in in E. destruct (N.eqb_spec (list_find same e h 0) npos) as [F|F]; cbn [negb]; [|reflexivity].
    apply find_npos in F; [tauto|lia].
  - assert (N : ~ In h e) by (intros I; apply existsb_in in I; congruence).
    destruct (N.eqb_spec (list_find same e h 0) npos) as [F|F]; cbn [negb].
    + rewrite <- app_assoc. reflexivity.
    + destruct F. apply find_npos; [lia|assumption].
Qed.

Lemma firsts_in l : forall e x, In x (firsts l e) <-> In x l /\ ~ In x e.
Proof.
  induction l as [|h t IH]; intros e x; cbn [firsts]; [cbn; tauto|].
  destruct (existsb (fun y => same y h) e) eqn:E.
  - apply existsb_in in E. rewrite IH. cbn [In]. split; [tauto|]. intros [[->|I] N]; tauto.
  - assert (N : ~ In h e) by (intros I; apply existsb_in in I; congruence).
    cbn [In]. rewrite IH, in_app_iff. cbn [In]. split.
    + intros [->|[I K]]; [tauto|]. split; [tauto|]. tauto.
    + intros [[->|I] K]; [tauto|]. destruct (same h x) eqn:F.
      * apply same_spec in F. tauto.
      * right. split; [assumption|]. intros [J|[J|[]]]; [tauto|]. subst. assert (same x x = true) by (apply same_spec; reflexivity). congruence.
Qed.

Lemma firsts_nodup l : forall e, NoDup (firsts l e).
Proof.
  induction l as [|h t IH]; intros e; cbn [firsts]; [constructor|].
  destruct (existsb (fun y => same y h) e); [apply IH|]. constructor; [|apply IH].
  rewrite firsts_in, in_app_iff. cbn [In]. tauto.
Qed.

Lemma firsts_same l : forall e, NoDup (e ++ l) -> firsts l e = l.
Proof.
  induction l as [|h t IH]; intros e D; cbn [firsts]; [reflexivity|].
  destruct (existsb (fun y => same y h) e) eqn:E.
  - apply existsb_in in E. apply NoDup_remove_2 in D. destruct D. apply in_or_app. left. exact E.
  - f_equal. apply IH. rewrite <- app_assoc. exact D.
Qed.

Lemma filter_and (f g : T -> bool) l : filter f (filter g l) = filter (fun y => g y && f y) l.
Proof.
  induction l as [|h t IH]; cbn [filter]; [reflexivity|]. destruct (g h); cbn [filter andb]; [|exact IH].
  destruct (f h); rewrite IH; reflexivity.
Qed.

Lemma firsts_first l : forall e, firsts l e = filter (fun y => negb (existsb (fun z => same z y) e)) (first_occurrences same l).
Proof.
  induction l as [|h t IH]; intros e; cbn [firsts first_occurrences filter]; [reflexivity|].
  destruct (existsb (fun y => same y h) e) eqn:E; cbn [negb].
  - rewrite IH, filter_and. apply filter_ext. intros y. destruct (same h y) eqn:F; cbn [negb andb]; [|reflexivity].
    apply same_spec in F. subst. rewrite E. reflexivity.
  - rewrite IH, filter_and. f_equal. apply filter_ext. intros y. rewrite existsb_app. cbn [existsb]. rewrite orb_false_r, negb_orb.
    apply andb_comm.
Qed.

Lemma firsts_all l : firsts l [] = first_occurrences same l.
Proof.
  rewrite firsts_first. cbn [existsb negb]. generalize (first_occurrences same l). clear. intros l.
  induction l as [|h t IH]; cbn [filter]; [reflexivity|]. rewrite IH. reflexivity.
Qed.

Lemma same_list_spec l : forall l', same_list same l l' = true <-> l = l'.
Proof.
  induction l as [|x t IH]; intros [|y t']; cbn [same_list]; try (split; [discriminate|discriminate]); [tauto|].
  rewrite andb_true_iff, same_spec, IH. split; [intros [-> ->]; reflexivity|]. intros E. injection E. auto.
Qed.

Lemma alternatives_ok l : (N.of_nat (length l) <= npos)%N ->
  exists b, alternatives_unique same l = Type_ b /\ (b = true <-> NoDup l).
Proof.
  intros L. unfold alternatives_unique. rewrite unique_ok by (cbn [length]; lia). cbn [bind app]. eexists. split; [reflexivity|].
  rewrite same_list_spec. split; [intros <-; apply firsts_nodup|]. intros D. apply firsts_same. exact D.
Qed.
End Same.

Section Less.
Variable less : T -> T -> option bool.
Notation lt x y := (less x y = Some true).

Lemma merge_nil_r l1 : l1 <> [] -> list_merge less l1 [] = Type_ l1.
Proof. destruct l1; [congruence|reflexivity]. Qed.
Lemma merge_nil_l l2 : l2 <> [] -> list_merge less [] l2 = Type_ l2.
Proof. destruct l2; [congruence|reflexivity]. Qed.
Lemma merge_cons h1 t1 h2 t2 :
  list_merge less (h1 :: t1) (h2 :: t2) =
  do a <- list_merge less t1 (h2 :: t2);
  do a' <- list_push_front h1 a [];
  do b <- list_merge less (h1 :: t1) t2;
  do b' <- list_push_front h2 b [];
  match less h1 h2 with Some true => Type_ a' | Some false => Type_ b' | None => IllFormed end.
Proof. reflexivity. Qed.

Lemma merge_nil l1 : list_merge less l1 [] = match l1 with [] => IllFormed | _ => Type_ l1 end.
Proof. destruct l1; reflexivity. Qed.

(* a merge is well formed exactly when all pairs can be compared *)
Lemma merge_ok l1 : forall l2, l1 <> [] \/ l2 <> [] ->
  (forall x y, In x l1 -> In y l2 -> less x y <> None) ->
  exists l, list_merge less l1 l2 = Type_ l /\ Permutation l (l1 ++ l2) /\
    (StronglySorted (fun x y => ~ lt y x) l1 -> StronglySorted (fun x y => ~ lt y x) l2 ->
     (forall x y, In x (l1 ++ l2) -> In y (l1 ++ l2) -> lt x y -> ~ lt y x) ->
     (forall x y z, In x (l1 ++ l2) -> In y (l1 ++ l2) -> In z (l1 ++ l2) -> ~ lt x y -> ~ lt y z -> ~ lt x z) ->
     StronglySorted (fun x y => ~ lt y x) l).
Proof.
  induction l1 as [|h1 t1 IH1].
  { intros l2 [N|N]; [congruence|]. intros _. exists l2. split; [apply merge_nil_l; assumption|]. split; [reflexivity|]. auto. }
  induction l2 as [|h2 t2 IH2]; intros N D.
  { exists (h1 :: t1). split; [reflexivity|]. split; [rewrite app_nil_r; reflexivity|]. auto. }
  destruct (IH1 (h2 :: t2)) as (a & A1 & A2 & A3); [right; discriminate|intros x y I J; apply D; [right|]; assumption|].
  destruct IH2 as (b & B1 & B2 & B3); [left; discriminate|intros x y I J; apply D; [|right]; assumption|].
  rewrite merge_cons, A1. cbn [bind]. rewrite push_front_ok. cbn [bind]. rewrite B1. cbn [bind]. rewrite push_front_ok. cbn [bind app].
  destruct (less h1 h2) as [[]|] eqn:E; [| |exfalso; apply (D h1 h2); [left; reflexivity|left; reflexivity|assumption]].
  - exists (h1 :: a). split; [reflexivity|]. split; [cbn [app]; constructor; exact A2|].
    intros S1 S2 AS NT. inversion S1 as [|? ? S1' F1]; subst. constructor.
    + apply A3; [assumption|assumption| |].
      * intros x y X Y. apply AS; right; assumption.
      * intros x y z X Y Z. apply NT; right; assumption.
    + apply Forall_forall. intros y Y. apply (Permutation_in _ A2) in Y. apply in_app_or in Y. destruct Y as [Y|Y].
      * rewrite Forall_forall in F1. apply F1. exact Y.
      * inversion S2 as [|? ? S2' F2]; subst. destruct Y as [<-|Y].
        -- apply AS; [left; reflexivity|ins|assumption].
        -- rewrite Forall_forall in F2. apply (NT y h2 h1).
           ++ ins.
           ++ ins.
           ++ left. reflexivity.
           ++ apply F2. exact Y.
           ++ apply AS; [left; reflexivity|ins|assumption].
  - exists (h2 :: b). split; [reflexivity|]. split.
    { apply Permutation_trans with (h2 :: (h1 :: t1) ++ t2); [constructor; exact B2|]. apply Permutation_middle. }
    intros S1 S2 AS NT. inversion S2 as [|? ? S2' F2]; subst. inversion S1 as [|? ? S1' F1]; subst.
    assert (INC : forall x, In x ((h1 :: t1) ++ t2) -> In x ((h1 :: t1) ++ h2 :: t2)).
    { intros x. rewrite !in_app_iff. cbn [In]. tauto. }
    constructor.
    + apply B3; [assumption|assumption| |].
      * intros x y X Y. apply AS; apply INC; assumption.
      * intros x y z X Y Z. apply NT; apply INC; assumption.
    + apply Forall_forall. intros y Y. apply (Permutation_in _ B2) in Y. apply in_app_or in Y.
      assert (N12 : ~ lt h1 h2) by congruence.
      destruct Y as [[<-|Y]|Y].
      * exact N12.
      * rewrite Forall_forall in F1. apply (NT y h1 h2).
        -- ins.
        -- left. reflexivity.
        -- ins.
        -- apply F1. exact Y.
        -- exact N12.
      * rewrite Forall_forall in F2. apply F2. exact Y.
Qed.

Lemma merge_defined l1 : forall l2 l, list_merge less l1 l2 = Type_ l ->
  forall x y, In x l1 -> In y l2 -> less x y <> None.
Proof.
  induction l1 as [|h1 t1 IH1]; [intros l2 l _ x y []|].
  induction l2 as [|h2 t2 IH2]; intros l M x y X Y; [destruct Y|].
  rewrite merge_cons in M. destruct (list_merge less t1 (h2 :: t2)) as [a| |] eqn:A; cbn [bind] in M; try discriminate.
  rewrite push_front_ok in M. cbn [bind] in M.
  destruct (list_merge less (h1 :: t1) t2) as [b| |] eqn:B; cbn [bind] in M; try discriminate.
  rewrite push_front_ok in M. cbn [bind] in M.
  destruct X as [<-|X].
  - destruct Y as [<-|Y].
    + destruct (less h1 h2); [discriminate|discriminate].
    + apply (IH2 b eq_refl h1 y); [left; reflexivity|assumption].
  - apply (IH1 (h2 :: t2) a A x y); assumption.
Qed.

Lemma ordpairs_app (R : T -> T -> Prop) l1 l2 :
  ForallOrdPairs R (l1 ++ l2) <-> ForallOrdPairs R l1 /\ ForallOrdPairs R l2 /\ forall x y, In x l1 -> In y l2 -> R x y.
Proof.
  induction l1 as [|h t IH]; cbn [app].
  - split; [intros H; split; [constructor|split; [assumption|intros x y []]]|tauto].
  - split.
    + intros H. inversion H as [|? ? F P]; subst. apply IH in P. destruct P as (P1 & P2 & P3). rewrite Forall_app in F. destruct F as [F1 F2].
      split; [constructor; assumption|]. split; [assumption|]. intros x y [<-|X] Y; [rewrite Forall_forall in F2; apply F2; assumption|].
      apply P3; assumption.
    + intros (H1 & H2 & H3). inversion H1 as [|? ? F P]; subst. constructor.
      * rewrite Forall_app. split; [assumption|]. apply Forall_forall. intros y Y. apply H3; [left; reflexivity|assumption].
      * apply IH. split; [assumption|]. split; [assumption|]. intros x y X Y. apply H3; [right|]; assumption.
Qed.

Lemma halves l : 2 <= length l -> exists l1 l2, l = l1 ++ l2 /\ l1 <> [] /\ l2 <> [] /\ length l1 < length l /\ length l2 < length l /\
  list_split l (list_length l / 2) [] = Type_ (l1, l2).
Proof.
  intros L. set (n := length l / 2).
  assert (n < length l) by (apply Nat.div_lt; lia). assert (1 <= n) by (apply (Nat.div_le_lower_bound); lia).
  exists (firstn n l), (skipn n l). assert (L1 : length (firstn n l) = n) by (rewrite firstn_length; lia).
  assert (L2 : length (skipn n l) = length l - n) by apply skipn_length.
  split; [symmetry; apply firstn_skipn|]. split; [intros E; rewrite E in L1; cbn [length] in L1; lia|].
  split; [intros E; rewrite E in L2; cbn [length] in L2; lia|]. split; [lia|]. split; [lia|].
  rewrite length_ok, split_ok. fold n. destruct (Nat.leb_spec n (length l)); [reflexivity|lia].
Qed.

Lemma sort_short depth l : length l < 2 -> list_sort less depth l = Type_ l.
Proof.
  intros L. destruct depth; cbn [list_sort]; rewrite length_ok; destruct (Nat.ltb_spec (length l) 2); try lia; reflexivity.
Qed.

Lemma short_pairs (R : T -> T -> Prop) l : length l < 2 -> ForallOrdPairs R l.
Proof. destruct l as [|x [|y t]]; cbn [length]; intros L; try lia; repeat constructor. Qed.

Lemma short_sorted (R : T -> T -> Prop) l : length l < 2 -> StronglySorted R l.
Proof. destruct l as [|x [|y t]]; cbn [length]; intros L; try lia; repeat constructor. Qed.

Lemma weak_incl l l' : (forall x, In x l' -> In x l) -> weak_order less l -> weak_order less l'.
Proof.
  intros I [A B]. split; [intros x y X Y; apply A; apply I; assumption|].
  intros x y z X Y Z. apply B; apply I; assumption.
Qed.

Lemma sort_ok depth : forall l, length l <= depth -> ForallOrdPairs (fun x y => less x y <> None) l ->
  exists l', list_sort less depth l = Type_ l' /\ Permutation l' l /\
    (weak_order less l -> StronglySorted (fun x y => ~ lt y x) l').
Proof.
  induction depth as [|depth IH]; intros l L D.
  - exists l. split; [apply sort_short; lia|]. split; [reflexivity|]. intros _. apply short_sorted. lia.
  - destruct (Nat.ltb_spec (length l) 2) as [S|S].
    { exists l. split; [apply sort_short; lia|]. split; [reflexivity|]. intros _. apply short_sorted. lia. }
    destruct (halves l S) as (l1 & l2 & E & N1 & N2 & L1 & L2 & H). cbn [list_sort]. rewrite H. rewrite length_ok.
    destruct (Nat.ltb_spec (length l) 2); [lia|]. cbn [bind]. subst l.
    apply ordpairs_app in D. destruct D as (D1 & D2 & D3).
    destruct (IH l1) as (a & A1 & A2 & A3); [lia|assumption|]. destruct (IH l2) as (b & B1 & B2 & B3); [lia|assumption|].
    rewrite A1. cbn [bind]. rewrite B1. cbn [bind].
    destruct (merge_ok a b) as (c & C1 & C2 & C3).
    { left. intros ->. apply Permutation_nil in A2. congruence. }
    { intros x y X Y. apply D3; [apply (Permutation_in _ A2); assumption|apply (Permutation_in _ B2); assumption]. }
    exists c. split; [exact C1|]. split; [rewrite C2; apply Permutation_app; assumption|].
    intros W. assert (W' : weak_order less (a ++ b)).
    { apply (weak_incl (l1 ++ l2)); [|assumption]. intros x X. apply (Permutation_in (l := a ++ b)); [apply Permutation_app; assumption|exact X]. }
    apply C3; try apply W'.
    + apply A3. apply (weak_incl (l1 ++ l2)); [|assumption]. intros x X. apply in_or_app. left. exact X.
    + apply B3. apply (weak_incl (l1 ++ l2)); [|assumption]. intros x X. apply in_or_app. right. exact X.
Qed.

Lemma sort_defined depth : forall l l', length l <= depth -> list_sort less depth l = Type_ l' ->
  ForallOrdPairs (fun x y => less x y <> None) l /\ Permutation l' l.
Proof.
  induction depth as [|depth IH]; intros l l' L E.
  - rewrite sort_short in E by lia. injection E as <-. split; [apply short_pairs; lia|reflexivity].
  - destruct (Nat.ltb_spec (length l) 2) as [S|S].
    { rewrite sort_short in E by lia. injection E as <-. split; [apply short_pairs; lia|reflexivity]. }
    destruct (halves l S) as (l1 & l2 & EL & N1 & N2 & L1 & L2 & H). cbn [list_sort] in E. rewrite H in E. rewrite length_ok in E.
    destruct (Nat.ltb_spec (length l) 2); [lia|]. cbn [bind] in E. subst l.
    destruct (list_sort less depth l1) as [a| |] eqn:A; cbn [bind] in E; try discriminate.
    destruct (list_sort less depth l2) as [b| |] eqn:B; cbn [bind] in E; try discriminate.
    destruct (IH l1 a) as [P1 Q1]; [lia|assumption|]. destruct (IH l2 b) as [P2 Q2]; [lia|assumption|].
    pose proof (merge_defined _ _ _ E) as D.
    destruct (merge_ok a b) as (c & C1 & C2 & _).
    { left. intros ->. apply Permutation_nil in Q1. congruence. }
    { exact D. }
    rewrite C1 in E. injection E as <-. split.
    + apply ordpairs_app. split; [assumption|]. split; [assumption|]. intros x y X Y.
      apply D; [apply (Permutation_in (l := l1)); [symmetry; assumption|assumption]|apply (Permutation_in (l := l2)); [symmetry; assumption|assumption]].
    + rewrite C2. apply Permutation_app; assumption.
Qed.
End Less.

(* the order by size is one to sort by *)
Lemma sizeof_order (sizeof : T -> option N) l : weak_order (type_less_sizeof sizeof) l.
Proof.
  unfold weak_order, type_less_sizeof. split.
  - intros x y _ _. destruct (sizeof x) as [a|], (sizeof y) as [b|]; try discriminate.
    intros H K. injection H as H. injection K as K. apply N.ltb_lt in H. apply N.ltb_lt in K. lia.
  - intros x y z _ _ _. destruct (sizeof x) as [a|], (sizeof y) as [b|], (sizeof z) as [c|]; try discriminate; try congruence.
    intros H K G. injection G as G. apply N.ltb_lt in G.
    assert (H' : (a <? b)%N = false) by (destruct (a <? b)%N; congruence).
    assert (K' : (b <? c)%N = false) by (destruct (b <? c)%N; congruence).
    apply N.ltb_ge in H'. apply N.ltb_ge in K'. lia.
Qed.
End Proofs.
