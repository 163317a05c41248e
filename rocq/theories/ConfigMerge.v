(* Lemmas about merge_impl_. *)
From Coq Require Import Ascii List Bool Arith NArith ZArith Lia Sorting.Sorted Sorting.Permutation.
From Verif Require Import ConfigModel ConfigSpec ConfigProofs ConfigCopy ConfigPath.
Import ListNotations.

(* ---- sorted key lists ---- *)
Lemma sinsert_perm k l : Permutation (sinsert k l) (k :: l).
Proof. induction l as [|h t IH]; cbn; [reflexivity|]. destruct (sltb h k); [|reflexivity]. rewrite IH. apply perm_swap. Qed.
Lemma ssort_perm l : Permutation (ssort l) l.
Proof. induction l as [|h t IH]; cbn; [reflexivity|]. rewrite sinsert_perm. apply perm_skip. exact IH. Qed.
Lemma sinsert_sorted k l : StronglySorted sle l -> StronglySorted sle (sinsert k l).
Proof.
  induction 1 as [|h t Ht IH Hh]; cbn; [repeat constructor|]. destruct (sltb h k) eqn:E.
  - constructor; [exact IH|]. rewrite Forall_forall in *. intros x Hx.
    apply (Permutation_in _ (sinsert_perm k t)) in Hx. destruct Hx as [<-|Hx]; [|auto]. left. apply sltb_spec. exact E.
  - apply sltb_false in E. constructor; [constructor; assumption|]. constructor; [exact E|].
    rewrite Forall_forall in *. intros x Hx. eapply sle_trans; eauto.
Qed.
Lemma ssort_sorted l : StronglySorted sle (ssort l).
Proof. induction l; cbn; [constructor|]. apply sinsert_sorted; assumption. Qed.
Lemma ssort_in l x : In x (ssort l) <-> In x l.
Proof. split; apply Permutation_in; [|symmetry]; apply ssort_perm. Qed.

Lemma not_in_below a l x : StronglySorted sle (a :: l) -> slt x a -> ~ In x (a :: l).
Proof.
  intros H Hx Hi. inversion H; subst. rewrite Forall_forall in H3. destruct Hi as [->|Hi]; [eapply slt_irrefl; eauto|].
  destruct (H3 _ Hi) as [Hl| ->]; eapply slt_irrefl; eauto using slt_trans.
Qed.
Lemma set_inter_nil_r l : set_inter l [] = [].
Proof. destruct l; reflexivity. Qed.
Lemma set_inter_cons a t1 b t2 : set_inter (a :: t1) (b :: t2) =
  match scmp a b with Lt => set_inter t1 (b :: t2) | Gt => set_inter (a :: t1) t2 | Eq => a :: set_inter t1 t2 end.
Proof. reflexivity. Qed.
Lemma set_inter_spec l1 : forall l2, StronglySorted sle l1 -> StronglySorted sle l2 ->
  StronglySorted sle (set_inter l1 l2) /\ (forall x, In x (set_inter l1 l2) <-> In x l1 /\ In x l2).
Proof.
  induction l1 as [|a t1 IH1]; intros l2 S1 S2.
  { destruct l2; cbn; (split; [constructor|intuition]). }
  induction l2 as [|b t2 IH2]; [cbn; split; [constructor|intuition]|].
  rewrite set_inter_cons. inversion S1 as [|? ? S1' F1]; subst. inversion S2 as [|? ? S2' F2]; subst.
  destruct (scmp a b) eqn:E.
  - apply scmp_eq in E. subst b. destruct (IH1 t2 S1' S2') as [I1 I2]. split.
    + constructor; [exact I1|]. rewrite Forall_forall in *. intros x Hx. apply I2 in Hx. apply F1. tauto.
    + intros x. cbn. rewrite I2. intuition (subst; auto).
  - apply scmp_lt in E. destruct (IH1 (b :: t2) S1' S2) as [I1 I2]. split; [exact I1|].
    intros x. rewrite I2. cbn [In]. split; [tauto|]. intros [[<-|H] H2]; [|tauto].
    exfalso. eapply (not_in_below b t2 a); eauto.
  - apply scmp_gt in E. destruct (IH2 S2') as [I1 I2]. split; [exact I1|].
    intros x. rewrite I2. cbn [In]. split; [tauto|]. intros [H1 [<-|H]]; [|tauto].
    exfalso. eapply (not_in_below a t1 b); eauto.
Qed.
Lemma lower_bound_spec l k : StronglySorted sle l ->
  match lower_bound l k with [] => ~ In k l | h :: _ => (k = h <-> In k l) end.
Proof.
  induction 1 as [|h t Ht IH Hh]; cbn; [tauto|]. destruct (sltb h k) eqn:E.
  - assert (Hne : h <> k) by (intros ->; apply sltb_spec in E; eapply slt_irrefl; eauto).
    destruct (lower_bound t k); intuition.
  - apply sltb_false in E. split; [intros ->; auto|]. intros [->|Hi]; [reflexivity|].
    rewrite Forall_forall in Hh. specialize (Hh _ Hi). destruct E as [E|E]; [|exact E].
    destruct Hh as [Hl|Hl]; [exfalso; eapply slt_irrefl; eauto using slt_trans|auto].
Qed.
Lemma is_common_spec l k : StronglySorted sle l -> is_common l k = true <-> In k l.
Proof.
  intros H. pose proof (lower_bound_spec l k H) as L. unfold is_common. destruct (lower_bound l k).
  - split; [discriminate|tauto].
  - rewrite seqb_spec. exact L.
Qed.

(* ---- one level of the merge ---- *)
Definition null_or_assoc (b : option conf) : bool := match b with None => true | Some c => is_assoc (ckind c) end.
Definition mval_r (f : nat) (lv rv : value) : res value :=
  match lv, rv with
  | VConf lc, VConf rc => if assoc_b lc && assoc_b rc then bind (merge_impl f lc rc) (fun m => Ok (VConf (Some m))) else Ok lv
  | _, _ => Ok lv
  end.
Definition common_r (f : nat) (l r : option conf) (k : str) : res (option value) :=
  match e_val (at_key l k), e_val (at_key r k) with
  | Some lv, Some rv => bind (mval_r f lv rv) (fun x => Ok (Some x))
  | _, _ => Throw
  end.
Definition side_r (f : nat) (l r b : option conf) (k : str) : res (option value) :=
  if is_common (set_inter (ssort (keys l)) (ssort (keys r))) k then common_r f l r k else Ok (e_val (at_key b k)).
Definition put_step (sv : str -> res (option value)) (acc : conf) (k : str) : res conf :=
  bind (sv k) (fun o => match o with None => Ok acc | Some v => put acc k (Some v) end).
Lemma merge_unfold f l r :
  merge_impl (S f) l r =
  if null_or_assoc l && null_or_assoc r then
    bind (foldM (put_step (side_r f l r l)) (ssort (keys l)) (if multi_b l || multi_b r then Conf KMulti [] else Conf KMap []))
         (foldM (put_step (side_r f l r r)) (ssort (keys r)))
  else Throw.
Proof.
  cbn [merge_impl]. change (match l with None => true | Some c => is_assoc (ckind c) end) with (null_or_assoc l).
  change (match r with None => true | Some c => is_assoc (ckind c) end) with (null_or_assoc r).
  destruct (null_or_assoc l && null_or_assoc r); [|reflexivity].
  assert (Hs : forall b acc k,
    (if is_common (set_inter (ssort (keys l)) (ssort (keys r))) k
     then match e_val (at_key l k), e_val (at_key r k) with
          | Some lv, Some rv =>
              match lv, rv with
              | VConf lc, VConf rc =>
                  if assoc_b lc && assoc_b rc
                  then bind (merge_impl f lc rc) (fun m => put acc k (Some (VConf (Some m))))
                  else put acc k (Some (copy_value lv))
              | _, _ => put acc k (Some (copy_value lv))
              end
          | _, _ => Throw
          end
     else match e_val (at_key b k) with Some v => put acc k (Some (copy_value v)) | None => Ok acc end)
    = put_step (side_r f l r b) acc k).
  { intros b acc k. unfold put_step, side_r, common_r. destruct (is_common _ k); [|destruct (e_val (at_key b k)); reflexivity].
    destruct (e_val (at_key l k)) as [lv|]; [|reflexivity]. destruct (e_val (at_key r k)) as [rv|]; [|reflexivity].
    unfold mval_r. destruct lv as [| | | |lc]; try reflexivity. destruct rv as [| | | |rc]; try reflexivity.
    destruct (assoc_b lc && assoc_b rc); [|reflexivity]. rewrite !bind_assoc. reflexivity. }
  match goal with |- bind ?A ?F = bind ?B ?G =>
    transitivity (bind B F); [f_equal|apply bind_ext] end.
  - apply foldM_ext. intros; apply Hs.
  - intros a. apply foldM_ext. intros; apply Hs.
Qed.

(* ---- fuel ---- *)
Lemma resolve_nodes t : forall b c, e_val (resolve b t) = Some (VConf (Some c)) -> nodes c < nodes_b b.
Proof.
  induction t as [|n rest IH]; intros b c H; [discriminate|]. cbn [resolve] in H.
  destruct b as [d|]; [|discriminate]. pose proof (find_key_snd d n) as Hf. destruct (find_key d n) as [i v]. cbn [snd] in Hf.
  assert (Hd : forall c', v = Some (VConf (Some c')) -> nodes c' < nodes d).
  { intros c' ->. symmetry in Hf. apply bassoc_in in Hf. destruct d as [k es]. eapply nodes_conf; eauto. }
  destruct rest as [|r0 rest0]; cbn [tok_has_next] in H.
  - cbn in H. apply Hd. exact H.
  - apply IH in H. destruct v as [[| | | |[c'|]]|]; cbn in H; try lia. specialize (Hd c' eq_refl). cbn. lia.
Qed.
Lemma foldM_no_fuel {A B} (f : A -> B -> res A) l a : (forall a x, In x l -> f a x <> Fuel) -> foldM f l a <> Fuel.
Proof.
  revert a; induction l as [|x t IH]; intros a H; cbn; [discriminate|].
  specialize (H a x (or_introl eq_refl)) as Hx. destruct (f a x); cbn; try congruence. apply IH. intros; apply H; right; auto.
Qed.
Lemma put_no_fuel c k v : put c k v <> Fuel.
Proof. destruct c as [[] es]; discriminate. Qed.
Lemma mval_fuel f1 f2 lv rv : (forall lc rc, lv = VConf (Some lc) -> merge_impl f1 (Some lc) rc = merge_impl f2 (Some lc) rc) ->
  mval_r f1 lv rv = mval_r f2 lv rv.
Proof.
  intros H. destruct lv as [| | | |[lc|]]; try reflexivity; destruct rv as [| | | |rc]; try reflexivity. cbn.
  destruct (is_assoc (ckind lc) && assoc_b rc); [|reflexivity]. rewrite (H lc rc eq_refl). reflexivity.
Qed.
Lemma merge_fuel f1 : forall f2 l r, f1 > nodes_b l -> f2 > nodes_b l -> merge_impl f1 l r = merge_impl f2 l r.
Proof.
  induction f1 as [|f1 IH]; intros f2 l r H1 H2; [lia|]. destruct f2 as [|f2]; [lia|]. rewrite !merge_unfold.
  destruct (null_or_assoc l && null_or_assoc r); [|reflexivity].
  assert (Hs : forall b acc k, put_step (side_r f1 l r b) acc k = put_step (side_r f2 l r b) acc k).
  { intros b acc k. unfold put_step, side_r. destruct (is_common _ k); [|reflexivity]. unfold common_r.
    destruct (e_val (at_key l k)) as [lv|] eqn:El; [|reflexivity]. destruct (e_val (at_key r k)) as [rv|]; [|reflexivity].
    rewrite (mval_fuel f1 f2); [reflexivity|]. intros lc rc ->. apply resolve_nodes in El. apply IH; cbn [nodes_b]; lia. }
  match goal with |- bind ?A ?F = bind ?B ?G => transitivity (bind B F); [f_equal|apply bind_ext] end.
  - apply foldM_ext. intros; apply Hs.
  - intros a. apply foldM_ext. intros; apply Hs.
Qed.
Lemma merge_no_fuel f : forall l r, f > nodes_b l -> merge_impl f l r <> Fuel.
Proof.
  induction f as [|f IH]; intros l r H; [lia|]. rewrite merge_unfold.
  destruct (null_or_assoc l && null_or_assoc r); [|discriminate].
  assert (Hs : forall b acc k, put_step (side_r f l r b) acc k <> Fuel).
  { intros b acc k. unfold put_step, side_r. destruct (is_common _ k).
    2:{ cbn. destruct (e_val (at_key b k)); [apply put_no_fuel|discriminate]. }
    unfold common_r. destruct (e_val (at_key l k)) as [lv|] eqn:El; [|discriminate].
    destruct (e_val (at_key r k)) as [rv|]; [|discriminate]. rewrite bind_assoc.
    assert (Hp : forall x : value, bind (Ok x) (fun a => bind (Ok (Some a)) (fun o => match o with Some v => put acc k (Some v) | None => Ok acc end)) <> Fuel)
      by (intros; apply put_no_fuel).
    unfold mval_r. destruct lv as [| | | |lc]; try apply Hp; destruct rv as [| | | |rc]; try apply Hp.
    destruct (assoc_b lc && assoc_b rc) eqn:E; [|apply Hp].
    destruct lc as [lc|]; [|discriminate]. apply resolve_nodes in El.
    assert (Hm : merge_impl f (Some lc) rc <> Fuel) by (apply IH; cbn; lia).
    destruct (merge_impl f (Some lc) rc); cbn; try congruence. apply put_no_fuel. }
  match goal with |- bind ?A ?F <> Fuel => assert (Hl : A <> Fuel) by (apply foldM_no_fuel; intros; apply Hs); destruct A; cbn; try congruence end.
  apply foldM_no_fuel. intros; apply Hs.
Qed.

(* ---- result of a level, for maps ---- *)
Definition inb (n : str) (ks : list str) : bool := existsb (fun k => seqb k n) ks.
Lemma inb_spec n ks : inb n ks = true <-> In n ks.
Proof.
  unfold inb. rewrite existsb_exists. split.
  - intros (x & Hx & E). apply seqb_spec in E. subst. exact Hx.
  - intros H. exists n. split; [exact H|apply seqb_refl].
Qed.
Definition res_slot (r : res (option value)) (d : slot) : slot := match r with Ok (Some v) => Some v | _ => d end.
Lemma fold_put_map sv ks : forall acc c', StronglySorted slt (map fst acc) ->
  foldM (put_step sv) ks (Conf KMap acc) = Ok c' ->
  exists es', c' = Conf KMap es' /\ StronglySorted slt (map fst es') /\
    (forall k, In k ks -> exists o, sv k = Ok o) /\
    (forall n, assoc n es' = if inb n ks then res_slot (sv n) (assoc n acc) else assoc n acc) /\
    (forall n s, In (n, s) es' -> In (n, s) acc \/ (In n ks /\ exists v, s = Some v /\ sv n = Ok (Some v))).
Proof.
  induction ks as [|k t IH]; intros acc c' Hs H; cbn [foldM] in H.
  - injection H as <-. exists acc. split; [reflexivity|]. split; [exact Hs|]. split; [intros ? []|]. split; [reflexivity|]. auto.
  - apply bind_ok in H as (c1 & H1 & H). unfold put_step in H1. apply bind_ok in H1 as (o & Ho & H1).
    assert (H2 : exists acc1, c1 = Conf KMap acc1 /\ StronglySorted slt (map fst acc1) /\
              (forall n, assoc n acc1 = if seqb k n then res_slot (Ok o) (assoc n acc) else assoc n acc) /\
              (forall n s, In (n, s) acc1 -> In (n, s) acc \/ (n = k /\ s = o /\ o <> None))).
    { destruct o as [v|].
      - cbn [put] in H1. injection H1 as <-. eexists. split; [reflexivity|]. split; [apply map_put_sorted; exact Hs|].
        split; [intros n; rewrite assoc_map_put by exact Hs; reflexivity|].
        intros n s Hi. apply map_put_in in Hi. destruct Hi as [[-> ->]|Hi]; [right|left; exact Hi].
        split; [reflexivity|]. split; [reflexivity|discriminate].
      - injection H1 as <-. exists acc. split; [reflexivity|]. split; [exact Hs|]. split; [intros n; destruct (seqb k n); reflexivity|auto]. }
    destruct H2 as (acc1 & -> & Hs1 & Ha1 & Hi1). destruct (IH acc1 c' Hs1 H) as (es' & -> & Hs' & Hok & Ha & Hi).
    exists es'. split; [reflexivity|]. split; [exact Hs'|]. split; [|split].
    + intros x [<-|Hx]; eauto.
    + intros n. rewrite Ha, Ha1. cbn [inb existsb]. fold (inb n t). destruct (seqb k n) eqn:E; cbn [orb].
      * apply seqb_spec in E. subst. rewrite Ho. destruct (inb n t); [|reflexivity]. destruct o; reflexivity.
      * reflexivity.
    + intros n s Hin. destruct (Hi n s Hin) as [H2|(Hn & v & -> & Hv)].
      * destruct (Hi1 n s H2) as [H3|(-> & -> & Hne)]; [auto|]. right. split; [left; reflexivity|].
        destruct o as [v|]; [|congruence]. eauto.
      * right. split; [right; exact Hn|]. eauto.
Qed.
Lemma fold_put_map_ok sv ks : forall acc, (forall k, In k ks -> exists o, sv k = Ok o) ->
  exists acc', foldM (put_step sv) ks (Conf KMap acc) = Ok (Conf KMap acc').
Proof.
  induction ks as [|k t IH]; intros acc H; cbn [foldM]; [eauto|]. unfold put_step at 1.
  destruct (H k) as (o & ->); [left; reflexivity|]. cbn [bind]. destruct o as [v|]; cbn [put bind]; apply IH; intros; apply H; right; auto.
Qed.

(* the meaning of merging, as functions on slots *)
Definition M (l r : option conf) : conf := match merged_with l r PLeft with Ok m => m | _ => Conf KMap [] end.
Definition mval (lv rv : value) : value :=
  match lv, rv with
  | VConf lc, VConf rc => if assoc_b lc && assoc_b rc then VConf (Some (M lc rc)) else lv
  | _, _ => lv
  end.
Definition mslot (ls rs : slot) : slot :=
  match ls, rs with Some lv, Some rv => Some (mval lv rv) | Some lv, None => Some lv | None, _ => rs end.
Definition fine (b : option conf) : Prop := on wf b /\ on mono b /\ on plain b.
Lemma fine_multi b : fine b -> multi_b b = false.
Proof. intros (_ & H & _). destruct b as [[k es]|]; [|reflexivity]. inversion H; subst. destruct k; cbn; congruence. Qed.
Lemma fine_keys b n : fine b -> In n (keys b) -> plain_key n.
Proof.
  intros (_ & _ & H) Hi. rewrite keys_spec in Hi. destruct b as [[k es]|]; [|destruct Hi]. inversion H as [? ? Hp _]; subst.
  cbn in Hi. destruct (is_assoc k) eqn:Ha; [|destruct Hi]. apply in_map_iff in Hi as ([m s] & Hm & Hi). cbn in Hm. subst m.
  eapply Hp; [destruct k; cbn in *; congruence|exact Hi].
Qed.
Lemma keys_bassoc b n v : bassoc b n = Some v -> In n (keys b).
Proof.
  intros H. rewrite keys_spec. destruct b as [c|]; [|discriminate]. pose proof (bassoc_in c n v H) as Hi.
  destruct c as [k es]. cbn in Hi. assert (Ha : is_assoc k = true) by (destruct k; try reflexivity; discriminate).
  cbn. rewrite Ha. change n with (fst (n, Some v)). apply in_map. exact Hi.
Qed.
Lemma common_iff l r n : is_common (set_inter (ssort (keys l)) (ssort (keys r))) n = true <-> In n (keys l) /\ In n (keys r).
Proof.
  destruct (set_inter_spec (ssort (keys l)) (ssort (keys r)) (ssort_sorted _) (ssort_sorted _)) as [H1 H2].
  rewrite is_common_spec by exact H1. rewrite H2, !ssort_in. tauto.
Qed.
Lemma mval_r_ok f lv rv x : (forall lc, lv = VConf (Some lc) -> f > nodes lc) -> mval_r f lv rv = Ok x -> x = mval lv rv.
Proof.
  intros Hf H. unfold mval_r, mval in *. destruct lv as [| | | |lc]; try (injection H as <-; reflexivity).
  destruct rv as [| | | |rc]; try (injection H as <-; reflexivity).
  destruct (assoc_b lc && assoc_b rc) eqn:E; [|injection H as <-; reflexivity].
  destruct lc as [lc|]; [|discriminate]. apply bind_ok in H as (m & Hm & H). injection H as <-.
  unfold M, merged_with. rewrite (merge_fuel _ f) by (specialize (Hf _ eq_refl); cbn; lia). rewrite Hm. reflexivity.
Qed.
Lemma merge_level f l r m : f > nodes_b l -> fine l -> fine r -> merge_impl f l r = Ok m ->
  exists es', m = Conf KMap es' /\ StronglySorted slt (map fst es') /\
    (forall n, assoc n es' = mslot (bassoc l n) (bassoc r n)) /\
    (forall n s, In (n, s) es' -> s <> None /\ (In n (keys l) \/ In n (keys r))) /\
    (forall n, In n (keys l) -> In n (keys r) -> exists lv rv x, bassoc l n = Some lv /\ bassoc r n = Some rv /\ mval_r (pred f) lv rv = Ok x).
Proof.
  intros Hf Hl Hr H. destruct f as [|f]; [lia|]. cbn [pred]. rewrite merge_unfold in H.
  destruct (null_or_assoc l && null_or_assoc r); [|discriminate].
  rewrite (fine_multi l Hl), (fine_multi r Hr) in H. cbn [orb] in H.
  apply bind_ok in H as (c1 & H1 & H2).
  destruct (fold_put_map _ _ [] c1 (SSorted_nil _) H1) as (es1 & -> & S1 & O1 & A1 & I1).
  destruct (fold_put_map _ _ es1 m S1 H2) as (es2 & -> & S2 & O2 & A2 & I2).
  exists es2. split; [reflexivity|]. split; [exact S2|].
  assert (Hcom : forall n, In n (keys l) -> In n (keys r) -> exists lv rv x, bassoc l n = Some lv /\ bassoc r n = Some rv /\
             mval_r f lv rv = Ok x /\ forall b, side_r f l r b n = Ok (Some (mval lv rv))).
  { intros n Hnl Hnr. destruct (O1 n) as (o & Ho); [apply ssort_in; exact Hnl|].
    assert (Hc : is_common (set_inter (ssort (keys l)) (ssort (keys r))) n = true) by (apply common_iff; auto).
    unfold side_r in *. rewrite Hc in *. unfold common_r in *.
    rewrite !at_key_plain in * by (eapply fine_keys; [|eassumption]; assumption).
    destruct (bassoc l n) as [lv|] eqn:El; [|discriminate]. destruct (bassoc r n) as [rv|] eqn:Er; [|discriminate].
    apply bind_ok in Ho as (x & Hx & Ho). injection Ho as <-. exists lv, rv, x.
    split; [reflexivity|]. split; [reflexivity|]. split; [exact Hx|]. intros b. rewrite Hx. cbn [bind].
    rewrite (mval_r_ok f lv rv x); [reflexivity| |exact Hx].
    intros lc ->. destruct l as [[kl esl]|]; [|discriminate]. apply bassoc_in in El. cbn [nodes_b] in Hf.
    pose proof (nodes_conf kl esl n lc El). lia. }
  assert (Hsolo : forall b n, fine b -> In n (keys b) -> ~ (In n (keys l) /\ In n (keys r)) -> side_r f l r b n = Ok (bassoc b n)).
  { intros b n Hb Hi Hn. unfold side_r. destruct (is_common _ n) eqn:E; [apply common_iff in E; tauto|].
    rewrite at_key_plain by (eapply fine_keys; eauto). reflexivity. }
  assert (Hkeys : forall b n, bassoc b n <> None -> In n (keys b)).
  { intros b n Hb. destruct (bassoc b n) as [v|] eqn:E; [|congruence]. eapply keys_bassoc; eauto. }
  split; [|split].
  - intros n. rewrite A2, A1. change (assoc n []) with (None : slot).
    destruct (inb n (ssort (keys l))) eqn:Bl; destruct (inb n (ssort (keys r))) eqn:Br.
    + rewrite inb_spec, ssort_in in Bl. rewrite inb_spec, ssort_in in Br.
      destruct (Hcom n Bl Br) as (lv & rv & x & -> & -> & _ & Hsv). rewrite !Hsv. reflexivity.
    + rewrite inb_spec, ssort_in in Bl.
      assert (Hnr : ~ In n (keys r)) by (intros Hc; rewrite <- ssort_in, <- inb_spec in Hc; congruence).
      rewrite Hsolo by tauto. destruct (bassoc r n) as [rv|] eqn:Er; [exfalso; apply Hnr; eapply keys_bassoc; eauto|].
      destruct (bassoc l n); reflexivity.
    + rewrite inb_spec, ssort_in in Br.
      assert (Hnl : ~ In n (keys l)) by (intros Hc; rewrite <- ssort_in, <- inb_spec in Hc; congruence).
      rewrite Hsolo by tauto. destruct (bassoc l n) as [lv|] eqn:El; [exfalso; apply Hnl; eapply keys_bassoc; eauto|].
      destruct (bassoc r n); reflexivity.
    + assert (Hnl : ~ In n (keys l)) by (intros Hc; rewrite <- ssort_in, <- inb_spec in Hc; congruence).
      assert (Hnr : ~ In n (keys r)) by (intros Hc; rewrite <- ssort_in, <- inb_spec in Hc; congruence).
      destruct (bassoc l n) as [lv|] eqn:El; [exfalso; apply Hnl; eapply keys_bassoc; eauto|].
      destruct (bassoc r n) as [rv|] eqn:Er; [exfalso; apply Hnr; eapply keys_bassoc; eauto|]. reflexivity.
  - intros n s Hi. destruct (I2 n s Hi) as [Hi1|(Hk & v & -> & _)].
    + destruct (I1 n s Hi1) as [[]|(Hk & v & -> & _)]. rewrite ssort_in in Hk. split; [discriminate|auto].
    + rewrite ssort_in in Hk. split; [discriminate|auto].
  - intros n Hn1 Hn2. destruct (Hcom n Hn1 Hn2) as (lv & rv & x & H3 & H4 & H5 & _). eauto 6.
Qed.

(* ---- whole merges ---- *)
Lemma mono_sub k es : mono (Conf k es) -> forall m c, In (m, Some (VConf (Some c))) es -> mono c.
Proof. intros H; inversion H; subst; auto. Qed.
Lemma plain_sub k es : plain (Conf k es) -> forall m c, In (m, Some (VConf (Some c))) es -> plain c.
Proof. intros H; inversion H; subst; auto. Qed.
Lemma solid_sub k es : solid (Conf k es) -> forall m c, In (m, Some (VConf (Some c))) es -> solid c.
Proof. intros H; inversion H; subst; auto. Qed.
Lemma maps_sub k es : maps_only (Conf k es) -> forall m c, In (m, Some (VConf (Some c))) es -> maps_only c.
Proof. intros H; inversion H; subst; auto. Qed.
Lemma on_bassoc (P : conf -> Prop) b n c :
  (forall k es, P (Conf k es) -> forall m c, In (m, Some (VConf (Some c))) es -> P c) ->
  on P b -> bassoc b n = Some (VConf (Some c)) -> P c.
Proof. intros HP Hb H. exact (on_child P b n _ HP Hb H). Qed.
Lemma fine_child b n c : fine b -> bassoc b n = Some (VConf (Some c)) -> fine (Some c).
Proof.
  intros (H1 & H2 & H3) H. split; [|split].
  - eapply (on_bassoc wf); eauto. exact wf_sub.
  - eapply (on_bassoc mono); eauto. exact mono_sub.
  - eapply (on_bassoc plain); eauto. exact plain_sub.
Qed.
Lemma nodes_child b n c : bassoc b n = Some (VConf (Some c)) -> nodes c < nodes_b b.
Proof. intros H. destruct b as [[k es]|]; [|discriminate]. apply bassoc_in in H. eapply nodes_conf; eauto. Qed.
Lemma merge_eq l r m : fine l -> fine r -> merged_with l r PLeft = Ok m ->
  m = M l r /\ ckind m = KMap /\ (forall n, bassoc (Some m) n = mslot (bassoc l n) (bassoc r n)) /\
  (forall n lc rc, bassoc l n = Some (VConf (Some lc)) -> bassoc r n = Some (VConf (Some rc)) ->
     is_assoc (ckind lc) = true -> is_assoc (ckind rc) = true ->
     merged_with (Some lc) (Some rc) PLeft = Ok (M (Some lc) (Some rc))).
Proof.
  intros Hl Hr H. split; [unfold M; rewrite H; reflexivity|].
  destruct (merge_level _ l r m (Nat.lt_succ_diag_r _) Hl Hr H) as (es & -> & S & A & I & C).
  split; [reflexivity|]. split; [intros n; rewrite bassoc_assoc by reflexivity; apply A|].
  intros n lc rc El Er Hlc Hrc. destruct (C n) as (lv & rv & x & E1 & E2 & E3); [eapply keys_bassoc; eauto|eapply keys_bassoc; eauto|].
  rewrite El in E1. injection E1 as <-. rewrite Er in E2. injection E2 as <-.
  cbn [mval_r assoc_b] in E3. rewrite Hlc, Hrc in E3. cbn [andb] in E3. apply bind_ok in E3 as (m' & E3 & _).
  cbn [pred] in E3. unfold M, merged_with. pose proof (nodes_child l n lc El).
  rewrite (merge_fuel _ (nodes_b l)) by (cbn [nodes_b] in *; lia). rewrite E3. reflexivity.
Qed.

Lemma object_dec v : {object v} + {~ object v}.
Proof.
  destruct v as [| | | |[[k es]|]]; cbn; try (right; tauto). destruct k; [left|left|left|right]; try congruence; tauto.
Qed.
Lemma assoc_b_object c : assoc_b c = true <-> object (VConf c).
Proof. destruct c as [[k es]|]; cbn; [destruct k; cbn; intuition congruence|intuition congruence]. Qed.
Lemma mval_objects lc rc : object (VConf lc) -> object (VConf rc) -> mval (VConf lc) (VConf rc) = VConf (Some (M lc rc)).
Proof. intros H1 H2. apply assoc_b_object in H1. apply assoc_b_object in H2. cbn. rewrite H1, H2. reflexivity. Qed.
Lemma mval_other lv rv : ~ (object lv /\ object rv) -> mval lv rv = lv.
Proof.
  intros H. destruct lv as [| | | |lc]; try reflexivity. destruct rv as [| | | |rc]; try reflexivity. cbn.
  destruct (assoc_b lc && assoc_b rc) eqn:E; [|reflexivity]. apply andb_true_iff in E. rewrite !assoc_b_object in E. tauto.
Qed.
Lemma object_conf v : object v -> exists c, v = VConf (Some c) /\ is_assoc (ckind c) = true.
Proof. intros H. destruct (object_of_object v H) as (k & es & _ & Ha & ->). exists (Conf k es). auto. Qed.

Lemma merge_paths p : forall l r m, p <> [] -> fine l -> fine r -> merged_with l r PLeft = Ok m ->
  (forall lc rc, cget l p = Some (VConf lc) -> cget r p = Some (VConf rc) -> object (VConf lc) -> object (VConf rc) ->
     exists m', merged_with lc rc PLeft = Ok m' /\ cget (Some m) p = Some (VConf (Some m'))) /\
  (forall lv, cget l p = Some lv -> (forall rv, cget r p = Some rv -> ~ (object lv /\ object rv)) -> cget (Some m) p = Some lv) /\
  (cget l p = None -> ~ blocked l p -> cget (Some m) p = cget r p) /\
  (cget l p = None -> blocked l p -> cget (Some m) p = None).
Proof.
  induction p as [|n rest IH]; intros l r m Hp Hl Hr H; [congruence|].
  destruct (merge_eq l r m Hl Hr H) as (Em & Hk & Hb & Hc).
  assert (Hblock : forall lv, bassoc l n = Some lv -> blocked (object_of (Some lv)) rest -> blocked l (n :: rest)).
  { intros lv El (q & v & Hq & (x & y & Hpp) & Hv & Ho). exists (n :: q), v. split; [discriminate|]. split; [|split; [|exact Ho]].
    - exists x, y. cbn. rewrite Hpp. reflexivity.
    - rewrite cget_cons, El. rewrite vget_ne by exact Hq. exact Hv. }
  assert (Hblock' : forall lv, bassoc l n = Some lv -> object lv -> blocked l (n :: rest) -> blocked (object_of (Some lv)) rest).
  { intros lv El Hob (q & v & Hq & Hpp & Hv & Ho). destruct (proper_cons _ _ _ Hpp) as [->|(q' & -> & Hpp')]; [congruence|].
    rewrite cget_cons, El in Hv. destruct q' as [|q0 q']; [cbn in Hv; injection Hv as <-; contradiction|].
    exists (q0 :: q'), v. split; [discriminate|]. split; [exact Hpp'|]. split; [|exact Ho]. rewrite <- vget_as_conf. exact Hv. }
  rewrite !cget_cons, Hb.
  destruct rest as [|n1 rest1].
  - (* one name *)
    cbn [vget]. destruct (bassoc l n) as [lv|] eqn:El.
    + destruct (bassoc r n) as [rv|] eqn:Er; cbn [mslot].
      * split; [|split; [|split; [discriminate|discriminate]]].
        -- intros lc rc [= ->] [= ->] H1 H2. destruct (object_conf _ H1) as (lc' & [= ->] & A1). destruct (object_conf _ H2) as (rc' & [= ->] & A2).
           eexists. split; [eapply Hc; eauto|]. rewrite mval_objects by assumption. reflexivity.
        -- intros lv' [= <-] Hn. rewrite mval_other by (apply Hn; reflexivity). reflexivity.
      * split; [discriminate|]. split; [auto|]. split; discriminate.
    + cbn [mslot]. split; [discriminate|]. split; [discriminate|]. split; [reflexivity|].
      intros _ (q & v & Hq & Hpp & _). destruct (proper_cons _ _ _ Hpp) as [->|(q' & -> & (x & y & Hxy))]; [congruence|].
      destruct q'; discriminate.
  - destruct (bassoc l n) as [lv|] eqn:El.
    + destruct (bassoc r n) as [rv|] eqn:Er; cbn [mslot].
      * destruct (object_dec lv) as [Hlo|Hlo]; [destruct (object_dec rv) as [Hro|Hro]|].
        -- destruct (object_conf _ Hlo) as (lc & -> & A1). destruct (object_conf _ Hro) as (rc & -> & A2).
           rewrite mval_objects by assumption.
           destruct (IH (Some lc) (Some rc) (M (Some lc) (Some rc))) as (P1 & P2 & P3 & P4); [discriminate|exact (fine_child l n lc Hl El)|exact (fine_child r n rc Hr Er)|eapply Hc; eauto|].
           split; [exact P1|]. split; [exact P2|]. split.
           ++ intros H1 H2. apply P3; [exact H1|]. intros Hbl. apply H2. exact (Hblock _ eq_refl Hbl).
           ++ intros H1 H2. apply P4; [exact H1|]. exact (Hblock' _ eq_refl Hlo H2).
        -- rewrite mval_other by tauto.
           assert (Hrn : vget rv (n1 :: rest1) = None).
           { rewrite vget_object. destruct rv as [| | | |[[[] es]|]]; cbn in Hro |- *; try reflexivity; exfalso; apply Hro; discriminate. }
           rewrite Hrn. split; [discriminate|]. split; [auto|]. split; auto.
        -- rewrite mval_other by tauto.
           assert (Hln : vget lv (n1 :: rest1) = None).
           { rewrite vget_object. destruct lv as [| | | |[[[] es]|]]; cbn in Hlo |- *; try reflexivity; exfalso; apply Hlo; discriminate. }
           rewrite Hln. split; [discriminate|]. split; [discriminate|]. split; [|auto].
           intros _ Hnb. exfalso. apply Hnb. exists [n], lv. split; [discriminate|]. split; [exists n1, rest1; reflexivity|].
           split; [rewrite cget_cons, El; reflexivity|exact Hlo].
      * split; [discriminate|]. split; [auto|]. split; auto.
    + cbn [mslot]. split; [discriminate|]. split; [discriminate|]. split; [reflexivity|].
      intros _ (q & v & Hq & Hpp & Hv & _). destruct (proper_cons _ _ _ Hpp) as [->|(q' & -> & _)]; [congruence|].
      rewrite cget_cons, El in Hv. discriminate.
Qed.

(* ---- totality ---- *)
Lemma solid_bassoc b n : on solid b -> on wf b -> on mono b -> In n (keys b) -> exists v, bassoc b n = Some v.
Proof.
  intros Hs Hw Hm Hi. rewrite keys_spec in Hi. destruct b as [[k es]|]; [|destruct Hi]. cbn in Hi.
  destruct (is_assoc k) eqn:Ha; [|destruct Hi]. apply in_map_iff in Hi as ([m s] & Hx & Hi). cbn in Hx. subst m.
  rewrite bassoc_assoc by exact Ha. inversion Hs as [? ? Hn _]; subst. inversion Hw as [? ? Hk _]; subst. inversion Hm as [? ? Hk' _]; subst.
  assert (Hnd : NoDup (map fst es)) by (destruct k; cbn in *; try congruence; try discriminate; auto using slt_nodup).
  rewrite (assoc_nodup n s es Hnd Hi). destruct s as [v|]; [eauto|]. exfalso. eapply Hn; [|exact Hi]. destruct k; cbn in *; congruence.
Qed.
Lemma merge_total f : forall l r, f > nodes_b l -> fine l -> fine r -> on solid l -> on solid r ->
  null_or_assoc l = true -> null_or_assoc r = true -> exists m, merge_impl f l r = Ok m.
Proof.
  induction f as [|f IH]; intros l r Hf Hl Hr Hsl Hsr Hal Har; [lia|]. rewrite merge_unfold, Hal, Har. cbn [andb].
  rewrite (fine_multi l Hl), (fine_multi r Hr). cbn [orb].
  assert (Hcom : forall b n, In n (keys l) -> In n (keys r) -> exists o, side_r f l r b n = Ok o).
  { intros b n H1 H2. assert (Hc : is_common (set_inter (ssort (keys l)) (ssort (keys r))) n = true) by (apply common_iff; auto).
    unfold side_r. rewrite Hc. unfold common_r. rewrite !at_key_plain by (eapply fine_keys; [|eassumption]; assumption).
    destruct (solid_bassoc l n) as (lv & El); auto; try apply Hl. destruct (solid_bassoc r n) as (rv & Er); auto; try apply Hr.
    rewrite El, Er. assert (Hv : exists x, mval_r f lv rv = Ok x).
    { unfold mval_r. destruct lv as [| | | |lc]; eauto. destruct rv as [| | | |rc]; eauto.
      destruct (assoc_b lc && assoc_b rc) eqn:E; [|eauto]. apply andb_true_iff in E as [E1 E2].
      destruct lc as [lc|]; [|discriminate]. destruct rc as [rc|]; [|discriminate].
      destruct (IH (Some lc) (Some rc)) as (m & Hm).
      - pose proof (nodes_child l n lc El). cbn [nodes_b] in *. lia.
      - exact (fine_child l n lc Hl El).
      - exact (fine_child r n rc Hr Er).
      - exact (on_bassoc solid l n lc solid_sub Hsl El).
      - exact (on_bassoc solid r n rc solid_sub Hsr Er).
      - exact E1.
      - exact E2.
      - rewrite Hm. cbn. eauto. }
    destruct Hv as (x & ->). cbn. eauto. }
  assert (Hside : forall b n, (b = l \/ b = r) -> In n (keys b) -> exists o, side_r f l r b n = Ok o).
  { intros b n Hb Hi. destruct (is_common (set_inter (ssort (keys l)) (ssort (keys r))) n) eqn:E.
    - apply common_iff in E as [E1 E2]. apply Hcom; auto.
    - unfold side_r. rewrite E. eauto. }
  destruct (fold_put_map_ok (side_r f l r l) (ssort (keys l)) []) as (a1 & ->).
  { intros k Hk. rewrite ssort_in in Hk. auto. }
  cbn [bind]. destruct (fold_put_map_ok (side_r f l r r) (ssort (keys r)) a1) as (a2 & ->).
  { intros k Hk. rewrite ssort_in in Hk. auto. }
  eauto.
Qed.

(* ---- what the result is made of ---- *)
Definition closed (P : conf -> Prop) : Prop := forall k es, P (Conf k es) -> forall m c, In (m, Some (VConf (Some c))) es -> P c.
Lemma merge_shape (P : conf -> Prop) : closed P ->
  (forall es, (forall n c, In (n, Some (VConf (Some c))) es -> P c) -> StronglySorted slt (map fst es) ->
     (forall n s, In (n, s) es -> s <> None /\ plain_key n) -> P (Conf KMap es)) ->
  forall l r m, fine l -> fine r -> on P l -> on P r -> merged_with l r PLeft = Ok m -> P m.
Proof.
  intros HP Hbuild l. remember (nodes_b l) as N eqn:EN. revert l EN. induction N as [N IH] using lt_wf_ind.
  intros l -> r m Hl Hr Pl Pr H.
  destruct (merge_level _ l r m (Nat.lt_succ_diag_r _) Hl Hr H) as (es & -> & S & A & I & C).
  apply Hbuild; [|exact S|].
  - intros n c Hin. pose proof (assoc_nodup n _ es (slt_nodup _ S) Hin) as E. rewrite A in E.
    destruct (bassoc l n) as [lv|] eqn:El.
    + destruct (bassoc r n) as [rv|] eqn:Er; cbn in E; injection E as E.
      * destruct (object_dec lv) as [Hlo|Hlo]; [destruct (object_dec rv) as [Hro|Hro]|].
        -- destruct (object_conf _ Hlo) as (lc & -> & A1). destruct (object_conf _ Hro) as (rc & -> & A2).
           rewrite mval_objects in E by assumption. injection E as <-.
           destruct (merge_eq l r _ Hl Hr H) as (_ & _ & _ & Hc).
           apply (IH (nodes lc)) with (l := Some lc) (r := Some rc); [exact (nodes_child l n lc El)|reflexivity| | | | |eapply Hc; eauto].
           ++ exact (fine_child l n lc Hl El).
           ++ exact (fine_child r n rc Hr Er).
           ++ exact (on_bassoc P l n lc HP Pl El).
           ++ exact (on_bassoc P r n rc HP Pr Er).
        -- rewrite mval_other in E by tauto. subst lv. eapply (on_bassoc P); [exact HP|exact Pl|exact El].
        -- rewrite mval_other in E by tauto. subst lv. eapply (on_bassoc P); [exact HP|exact Pl|exact El].
      * subst lv. eapply (on_bassoc P); [exact HP|exact Pl|exact El].
    + cbn in E. eapply (on_bassoc P); [exact HP|exact Pr|exact E].
  - intros n s Hin. destruct (I n s Hin) as [H1 H2]. split; [exact H1|]. destruct H2 as [H2|H2]; [eapply (fine_keys l)|eapply (fine_keys r)]; eauto.
Qed.
Lemma merge_fine l r m : fine l -> fine r -> merged_with l r PLeft = Ok m -> fine (Some m).
Proof.
  intros Hl Hr H. pose proof Hl as (L1 & L2 & L3). pose proof Hr as (R1 & R2 & R3). split; [|split]; cbn [on].
  - apply (merge_shape wf) with (l := l) (r := r); auto.
    + exact wf_sub.
    + intros es H1 H2 H3. constructor; auto.
  - apply (merge_shape mono) with (l := l) (r := r); auto.
    + exact mono_sub.
    + intros es H1 H2 H3. constructor; auto. discriminate.
  - apply (merge_shape plain) with (l := l) (r := r); auto.
    + exact plain_sub.
    + intros es H1 H2 H3. constructor; auto. intros _ n v Hi. eapply H3; eauto.
Qed.
Lemma merge_solid l r m : fine l -> fine r -> on solid l -> on solid r -> merged_with l r PLeft = Ok m -> solid m.
Proof.
  intros Hl Hr Sl Sr H. apply (merge_shape solid) with (l := l) (r := r); auto.
  - exact solid_sub.
  - intros es H1 H2 H3. constructor; auto. intros _ n Hi. apply H3 in Hi. tauto.
Qed.
Lemma merge_maps l r m : fine l -> fine r -> on maps_only l -> on maps_only r -> merged_with l r PLeft = Ok m -> maps_only m.
Proof.
  intros Hl Hr Sl Sr H. apply (merge_shape maps_only) with (l := l) (r := r); auto.
  - exact maps_sub.
  - intros es H1 H2 H3. constructor; auto.
Qed.

(* ---- algebra on maps without null entries ---- *)
Definition tidy (b : option conf) : Prop := fine b /\ on solid b /\ on maps_only b /\ null_or_assoc b = true.
Lemma sorted_ext es1 : forall es2, StronglySorted slt (map fst es1) -> StronglySorted slt (map fst es2) ->
  (forall n, ~ In (n, None) es1) -> (forall n, ~ In (n, None) es2) ->
  (forall n, assoc n es1 = assoc n es2) -> es1 = es2.
Proof.
  induction es1 as [|[k1 s1] t1 IH]; intros [|[k2 s2] t2] S1 S2 N1 N2 E.
  - reflexivity.
  - exfalso. specialize (E k2). rewrite assoc_cons, seqb_refl in E. cbn in E. subst. eapply N2. left; reflexivity.
  - exfalso. specialize (E k1). rewrite assoc_cons, seqb_refl in E. cbn in E. subst. eapply N1. left; reflexivity.
  - cbn in S1, S2. inversion S1 as [|? ? S1' F1]; subst. inversion S2 as [|? ? S2' F2]; subst. rewrite Forall_forall in *.
    assert (Hk : k1 = k2).
    { destruct (slt_total k1 k2) as [H|[H|H]]; [exfalso|exact H|exfalso].
      - specialize (E k1). rewrite !assoc_cons, seqb_refl in E.
        assert (Hn : ~ In k1 (map fst ((k2, s2) :: t2))).
        { cbn. intros [->|Hi]; [eapply slt_irrefl; eauto|]. eapply slt_irrefl, slt_trans; [exact H|]. apply F2. exact Hi. }
        assert (E2 : assoc k1 ((k2, s2) :: t2) = None) by (apply assoc_notin; exact Hn).
        rewrite assoc_cons in E2. rewrite E2 in E. subst. eapply N1. left; reflexivity.
      - specialize (E k2). rewrite !assoc_cons, seqb_refl in E.
        assert (Hn : ~ In k2 (map fst ((k1, s1) :: t1))).
        { cbn. intros [->|Hi]; [eapply slt_irrefl; eauto|]. eapply slt_irrefl, slt_trans; [exact H|]. apply F1. exact Hi. }
        assert (E2 : assoc k2 ((k1, s1) :: t1) = None) by (apply assoc_notin; exact Hn).
        rewrite assoc_cons in E2. rewrite E2 in E. subst. eapply N2. left; reflexivity. }
    subst k2. assert (Hs : s1 = s2) by (specialize (E k1); rewrite !assoc_cons, seqb_refl in E; exact E). subst s2.
    f_equal. apply IH; auto.
    + intros n Hi. apply (N1 n). right; exact Hi.
    + intros n Hi. apply (N2 n). right; exact Hi.
    + intros n. destruct (list_eq_dec ascii_dec k1 n) as [->|Hne].
      * rewrite !assoc_notin; [reflexivity| |]; intros Hi; eapply slt_irrefl; [apply F2|apply F1]; exact Hi.
      * specialize (E n). rewrite !assoc_cons in E. apply seqb_neq in Hne. rewrite Hne in E. exact E.
Qed.
Lemma tidy_ext c1 c2 : tidy (Some c1) -> tidy (Some c2) -> (forall n, bassoc (Some c1) n = bassoc (Some c2) n) -> c1 = c2.
Proof.
  intros (F1 & S1 & M1 & A1) (F2 & S2 & M2 & A2) E. destruct c1 as [k1 es1]. destruct c2 as [k2 es2]. cbn in A1, A2.
  inversion M1 as [? ? K1 _]; subst. inversion M2 as [? ? K2 _]; subst.
  destruct K1 as [->| ->]; [|discriminate]. destruct K2 as [->| ->]; [|discriminate]. f_equal.
  destruct F1 as (W1 & _). destruct F2 as (W2 & _).
  inversion W1 as [? ? K1 _]; subst. inversion W2 as [? ? K2 _]; subst. inversion S1 as [? ? N1 _]; subst. inversion S2 as [? ? N2 _]; subst.
  apply sorted_ext; auto; try (apply N1; discriminate); try (apply N2; discriminate).
Qed.
Lemma tidy_merge l r : tidy l -> tidy r -> merged_with l r PLeft = Ok (M l r) /\ tidy (Some (M l r)) /\
  (forall n, bassoc (Some (M l r)) n = mslot (bassoc l n) (bassoc r n)).
Proof.
  intros (F1 & S1 & M1 & A1) (F2 & S2 & M2 & A2).
  destruct (merge_total (S (nodes_b l)) l r) as (m & Hm); auto.
  assert (H : merged_with l r PLeft = Ok m) by exact Hm.
  destruct (merge_eq l r m F1 F2 H) as (-> & Hk & Hb & _). split; [exact H|]. split; [|exact Hb].
  split; [exact (merge_fine l r _ F1 F2 H)|]. split; [exact (merge_solid l r _ F1 F2 S1 S2 H)|]. split; [exact (merge_maps l r _ F1 F2 M1 M2 H)|].
  cbn. rewrite Hk. reflexivity.
Qed.
Lemma tidy_child b n c : tidy b -> bassoc b n = Some (VConf (Some c)) -> is_assoc (ckind c) = true -> tidy (Some c).
Proof.
  intros (F & S & Mp & A) H Ha. split; [eapply fine_child; eauto|]. split; [|split; [|exact Ha]].
  - cbn. eapply (on_bassoc solid); eauto. exact solid_sub.
  - cbn. eapply (on_bassoc maps_only); eauto. exact maps_sub.
Qed.

Lemma merge_idem c : tidy (Some c) -> M (Some c) (Some c) = c.
Proof.
  induction c as [k es IH] using conf_ind'. intros T. destruct (tidy_merge _ _ T T) as (_ & T' & E).
  apply tidy_ext; auto. intros n. rewrite E. destruct (bassoc (Some (Conf k es)) n) as [v|] eqn:Ev; [|reflexivity]. cbn [mslot]. f_equal.
  destruct (object_dec v) as [Ho|Ho]; [|apply mval_other; tauto].
  destruct (object_conf _ Ho) as (c & -> & A). rewrite mval_objects by assumption. do 2 f_equal.
  apply (IH n c); [apply bassoc_in in Ev; exact Ev|exact (tidy_child _ n c T Ev A)].
Qed.
Lemma merge_neutral_r c b : tidy (Some c) -> tidy b -> (forall n, bassoc b n = None) -> M (Some c) b = c.
Proof.
  intros T Tb Hb. destruct (tidy_merge _ _ T Tb) as (_ & T' & E). apply tidy_ext; auto.
  intros n. rewrite E, Hb. destruct (bassoc (Some c) n); reflexivity.
Qed.
Lemma merge_neutral_l c b : tidy (Some c) -> tidy b -> (forall n, bassoc b n = None) -> M b (Some c) = c.
Proof.
  intros T Tb Hb. destruct (tidy_merge _ _ Tb T) as (_ & T' & E). apply tidy_ext; auto.
  intros n. rewrite E, Hb. reflexivity.
Qed.
Definition no_conflict (a b c : option conf) : Prop :=
  forall p av bv cv, p <> [] -> cget a p = Some av -> cget b p = Some bv -> cget c p = Some cv ->
    object av -> object cv -> object bv.
Lemma no_conflict_child a b c n ac bc cc : no_conflict a b c ->
  bassoc a n = Some (VConf (Some ac)) -> bassoc b n = Some (VConf (Some bc)) -> bassoc c n = Some (VConf (Some cc)) ->
  no_conflict (Some ac) (Some bc) (Some cc).
Proof.
  intros H Ea Eb Ec p av bv cv Hp Ha Hb Hc. apply (H (n :: p)); [discriminate| | |]; rewrite cget_cons; rewrite ?Ea, ?Eb, ?Ec; assumption.
Qed.
Lemma merge_assoc a : forall b c, tidy a -> tidy b -> tidy c -> no_conflict a b c -> M (Some (M a b)) c = M a (Some (M b c)).
Proof.
  remember (nodes_b a) as N eqn:EN. revert a EN. induction N as [N IH] using lt_wf_ind. intros a -> b c Ta Tb Tc Hn.
  destruct (tidy_merge a b Ta Tb) as (_ & Tab & Eab). destruct (tidy_merge b c Tb Tc) as (_ & Tbc & Ebc).
  destruct (tidy_merge _ c Tab Tc) as (_ & T1 & E1). destruct (tidy_merge a _ Ta Tbc) as (_ & T2 & E2).
  apply tidy_ext; auto. intros n. rewrite E1, E2, Eab, Ebc.
  destruct (bassoc a n) as [av|] eqn:Ea; [|destruct (bassoc b n); reflexivity].
  destruct (bassoc b n) as [bv|] eqn:Eb; [|reflexivity].
  destruct (bassoc c n) as [cv|] eqn:Ec; cbn [mslot].
  2:{ reflexivity. }
  f_equal. destruct (object_dec av) as [Oa|Oa].
  2:{ rewrite (mval_other av bv) by tauto. rewrite (mval_other av cv) by tauto. rewrite mval_other by tauto. reflexivity. }
  destruct (object_conf _ Oa) as (ac & -> & Aa).
  destruct (object_dec bv) as [Ob|Ob].
  - destruct (object_conf _ Ob) as (bc & -> & Ab). rewrite (mval_objects (Some ac)) by assumption.
    destruct (tidy_merge (Some ac) (Some bc)) as (_ & Tab' & _); [exact (tidy_child a n ac Ta Ea Aa)|exact (tidy_child b n bc Tb Eb Ab)|].
    assert (Oab : object (VConf (Some (M (Some ac) (Some bc))))) by (apply assoc_b_object; apply Tab').
    destruct (object_dec cv) as [Oc|Oc].
    + destruct (object_conf _ Oc) as (cc & -> & Ac). rewrite mval_objects by assumption.
      rewrite (mval_objects (Some bc)) by assumption.
      destruct (tidy_merge (Some bc) (Some cc)) as (_ & Tbc' & _); [exact (tidy_child b n bc Tb Eb Ab)|exact (tidy_child c n cc Tc Ec Ac)|].
      assert (Obc : object (VConf (Some (M (Some bc) (Some cc))))) by (apply assoc_b_object; apply Tbc').
      rewrite mval_objects by assumption. do 2 f_equal.
      apply (IH (nodes ac)) with (a := Some ac); [exact (nodes_child a n ac Ea)|reflexivity|exact (tidy_child a n ac Ta Ea Aa)|exact (tidy_child b n bc Tb Eb Ab)|exact (tidy_child c n cc Tc Ec Ac)|].
      eapply no_conflict_child; eauto.
    + rewrite mval_other by tauto. rewrite (mval_other _ cv) by tauto. rewrite mval_objects by assumption. reflexivity.
  - rewrite (mval_other _ bv) by tauto. rewrite (mval_other bv) by tauto. rewrite (mval_other _ bv) by tauto.
    apply mval_other. intros [_ Oc]. apply Ob. apply (Hn [n] (VConf (Some ac)) bv cv); auto; try discriminate; rewrite cget_cons; rewrite ?Ea, ?Eb, ?Ec; reflexivity.
Qed.
