(* Lemmas about with_only_path and with_value. *)
From Coq Require Import Ascii List Bool Arith NArith ZArith Lia Sorting.Sorted Sorting.Permutation.
From Verif Require Import ConfigModel ConfigSpec ConfigProofs ConfigCopy.
Import ListNotations.

(* ---- with_only_path ---- *)
Definition pick (n : str) (e : entry) : bool := match e_val e with None => false | Some _ => seqb (e_key e) n end.
Lemma find_entries n L : NoDup (map e_key L) ->
  match assoc n (map kv L) with
  | Some v => exists e, find (pick n) L = Some e /\ e_key e = n /\ e_val e = Some v
  | None => find (pick n) L = None
  end.
Proof.
  induction L as [|[i k s] t IH]; intros H; [reflexivity|]. cbn [map e_key] in H. inversion H; subst.
  cbn [map]. unfold kv at 1. cbn [e_key e_val]. rewrite assoc_cons. cbn [find]. unfold pick at 1 3. cbn [e_key e_val].
  destruct (seqb k n) eqn:E.
  - apply seqb_spec in E. subst. destruct s as [v|]; [eexists; split; [reflexivity|split; reflexivity]|].
    specialize (IH H3). rewrite assoc_notin in IH; [exact IH|]. rewrite map_map. exact H2.
  - destruct s; apply IH; auto.
Qed.
Lemma find_iterate n k es : NoDup (map fst es) ->
  match assoc n es with
  | Some v => exists e, find (pick n) (iterate (Some (Conf k es))) = Some e /\ e_key e = n /\ e_val e = Some v
  | None => find (pick n) (iterate (Some (Conf k es))) = None
  end.
Proof.
  intros H. pose proof (find_entries n (iterate (Some (Conf k es)))) as F.
  rewrite iterate_kv in F. cbn [centries] in F. apply F.
  replace (map e_key (iterate (Some (Conf k es)))) with (map fst es); [exact H|].
  rewrite <- (map_map kv fst). rewrite iterate_kv. reflexivity.
Qed.
Lemma put_empty k n v : is_assoc k = true -> put (Conf k []) n v = Ok (Conf k [(n, v)]).
Proof. destruct k; try discriminate; reflexivity. Qed.
Lemma only_level n rest k es : is_assoc k = true -> NoDup (map fst es) ->
  only_path_impl (n :: rest) (Some (Conf k es)) =
  match assoc n es with
  | None => Ok None
  | Some v => match rest with
              | [] => Ok (Some (Conf k [(n, Some v)]))
              | _ => bind (only_path_impl rest (object_of (Some v)))
                          (fun child => match child with
                                        | None => Ok None
                                        | Some ch => Ok (Some (Conf k [(n, Some (VConf (Some ch)))])) end)
              end
  end.
Proof.
  intros Ha Hnd. cbn [only_path_impl ckind]. rewrite Ha.
  change (find _ (iterate (Some (Conf k es)))) with (find (pick n) (iterate (Some (Conf k es)))).
  pose proof (find_iterate n k es Hnd) as F. destruct (assoc n es) as [v|].
  - destruct F as (e & -> & <- & ->). rewrite empty_copy_spec. cbn [ckind].
    destruct rest as [|r0 rest0].
    + rewrite put_empty by exact Ha. reflexivity.
    + apply bind_ext. intros [ch|]; [|reflexivity]. rewrite put_empty by exact Ha. reflexivity.
  - rewrite F. reflexivity.
Qed.

Definition only_post (b : option conf) (t : list str) (r : option conf) : Prop :=
  (r = None <-> cget b t = None) /\
  (forall q, prefix t q -> cget r q = cget b q) /\
  (forall q, diverges t q -> cget r q = None) /\
  (forall q, proper_prefix q t -> r <> None -> exists v, cget r q = Some v /\ object v).
Lemma cget_none n q : cget None (n :: q) = None.
Proof. reflexivity. Qed.
Lemma prefix_cons n t q : prefix (n :: t) q -> exists q', q = n :: q' /\ prefix t q'.
Proof. intros (r & ->). exists (t ++ r). split; [reflexivity|exists r; reflexivity]. Qed.
Lemma diverges_cons n t m q : diverges (n :: t) (m :: q) -> m <> n \/ (m = n /\ diverges t q).
Proof.
  intros [H1 H2]. destruct (list_eq_dec ascii_dec m n) as [->|H]; [right; split; [reflexivity|]|left; exact H].
  split; intros (r & Hr); [apply H1|apply H2]; exists r; cbn; rewrite Hr; reflexivity.
Qed.
Lemma diverges_nil t : ~ diverges t [].
Proof. intros [_ H]. apply H. exists t. reflexivity. Qed.
Lemma diverges_nil_l t : ~ diverges [] t.
Proof. intros [H _]. apply H. exists t. reflexivity. Qed.
Lemma proper_cons q n t : proper_prefix q (n :: t) -> q = [] \/ exists q', q = n :: q' /\ proper_prefix q' t.
Proof.
  intros (m & r & H). destruct q as [|x q']; [left; reflexivity|right]. injection H as <- H.
  exists q'. split; [reflexivity|]. exists m, r. exact H.
Qed.
Lemma only_post_null b t : t <> [] -> cget b t = None -> only_post b t None.
Proof.
  intros Ht H. destruct t as [|n t]; [congruence|]. split; [|split; [|split]].
  - split; auto.
  - intros q (r & ->). rewrite (cget_app b), H. reflexivity.
  - intros q Hq. destruct q; [destruct (diverges_nil _ Hq)|reflexivity].
  - intros q _ Hc. congruence.
Qed.
Lemma vget_ne v q : q <> [] -> vget v q = cget (object_of (Some v)) q.
Proof. destruct q; [congruence|]. intros _. apply vget_as_conf. Qed.
Lemma only_spec t : forall b r, t <> [] -> on wf b -> on single b -> only_path_impl t b = Ok r ->
  only_post b t r /\ on wf r /\ on single r.
Proof.
  induction t as [|n rest IH]; intros b r Ht Hw Hs H; [congruence|].
  destruct b as [[k es]|].
  2:{ cbn in H. injection H as <-. split; [|split; exact I]. apply only_post_null; [discriminate|reflexivity]. }
  destruct (is_assoc k) eqn:Ha.
  2:{ cbn [only_path_impl ckind] in H. rewrite Ha in H. discriminate. }
  inversion Hw as [? ? Hk Hwc]; subst. inversion Hs as [? ? Hnd Hsc]; subst.
  assert (Hnd' : NoDup (map fst es)) by (apply Hnd; destruct k; cbn in *; congruence).
  rewrite only_level in H by assumption.
  assert (Hb : forall m, bassoc (Some (Conf k es)) m = assoc m es) by (intros; apply bassoc_assoc; auto).
  destruct (assoc n es) as [v|] eqn:Ev.
  2:{ injection H as <-. split; [|split; exact I]. apply only_post_null; [discriminate|]. rewrite cget_cons, Hb, Ev. reflexivity. }
  assert (Hin : In (n, Some v) es) by (apply assoc_in; exact Ev).
  assert (Hsk : forall w, keys_ok k (map fst [(n, w : slot)])).
  { intros w. cbn. destruct k; cbn in *; try discriminate; repeat constructor; intros []. }
  assert (Hnew : forall w m, bassoc (Some (Conf k [(n, Some w)])) m = if seqb n m then Some w else None).
  { intros w m. rewrite bassoc_assoc by exact Ha. rewrite assoc_cons. reflexivity. }
  destruct rest as [|r0 rest0].
  - injection H as <-. split.
    + split; [|split; [|split]].
      * rewrite cget_cons, Hb, Ev. cbn. split; discriminate.
      * intros q Hq. destruct (prefix_cons _ _ _ Hq) as (q' & -> & _).
        rewrite !cget_cons, Hb, Ev, Hnew, seqb_refl. reflexivity.
      * intros q Hq. destruct q as [|m q]; [destruct (diverges_nil _ Hq)|].
        destruct (diverges_cons _ _ _ _ Hq) as [Hm|[-> Hd]]; [|destruct (diverges_nil_l _ Hd)].
        rewrite cget_cons, Hnew. destruct (seqb n m) eqn:E; [apply seqb_spec in E; congruence|reflexivity].
      * intros q Hq _. destruct (proper_cons _ _ _ Hq) as [->|(q' & -> & (m & r & Hr))].
        -- eexists. split; [reflexivity|]. apply object_intro; exact Ha.
        -- destruct q'; discriminate.
    + split; constructor; auto.
      * intros m c [Hm|[]]. injection Hm as <- ->. eauto.
      * intros _. cbn. repeat constructor. intros [].
      * intros m c [Hm|[]]. injection Hm as <- ->. eauto.
  - apply bind_ok in H as (ch & Hch & H).
    destruct (IH (object_of (Some v)) ch) as ((P1 & P2 & P3 & P4) & Q1 & Q2); auto; [discriminate| | |].
    { eapply on_child; [exact wf_sub|exact Hw|]. rewrite Hb. exact Ev. }
    { eapply on_child; [exact single_sub|exact Hs|]. rewrite Hb. exact Ev. }
    destruct ch as [ch|]; injection H as <-.
    + assert (Hobj : object (VConf (Some ch))).
      { destruct (P4 []) as (w & Hw' & Hob); [exists r0, rest0; reflexivity|discriminate|].
        cbn in Hw'. injection Hw' as <-. exact Hob. }
      split.
      * split; [|split; [|split]].
        -- rewrite cget_cons, Hb, Ev, vget_ne by discriminate. rewrite <- P1. split; discriminate.
        -- intros q Hq. destruct (prefix_cons _ _ _ Hq) as (q' & -> & Hq').
           rewrite !cget_cons, Hb, Ev, Hnew, seqb_refl.
           assert (q' <> []) by (destruct Hq' as (z & ->); discriminate).
           rewrite vget_ne by assumption. cbn [object_of as_conf]. rewrite P2 by exact Hq'. rewrite vget_ne by assumption. reflexivity.
        -- intros q Hq. destruct q as [|m q]; [destruct (diverges_nil _ Hq)|].
           rewrite cget_cons, Hnew. destruct (seqb n m) eqn:E; [|reflexivity]. apply seqb_spec in E. subst m.
           destruct (diverges_cons _ _ _ _ Hq) as [Hm|[_ Hd]]; [congruence|]. apply P3. exact Hd.
        -- intros q Hq _. destruct (proper_cons _ _ _ Hq) as [->|(q' & -> & Hq')].
           ++ eexists. split; [reflexivity|]. apply object_intro; exact Ha.
           ++ rewrite cget_cons, Hnew, seqb_refl. apply P4; [exact Hq'|discriminate].
      * split; constructor; auto.
        -- intros m c [Hm|[]]. injection Hm as <- ->. exact Q1.
        -- intros _. cbn. repeat constructor. intros [].
        -- intros m c [Hm|[]]. injection Hm as <- ->. exact Q2.
    + split; [|split; exact I]. apply only_post_null; [discriminate|].
      rewrite cget_cons, Hb, Ev, vget_ne by discriminate. apply P1. reflexivity.
Qed.
Lemma only_ok t : forall b v, t <> [] -> on wf b -> on single b -> cget b t = Some v -> exists r, only_path_impl t b = Ok r.
Proof.
  induction t as [|n rest IH]; intros b v Ht Hw Hs H; [congruence|].
  rewrite cget_cons in H. destruct b as [[k es]|]; [|discriminate].
  destruct (is_assoc k) eqn:Ha; [|destruct k; discriminate].
  inversion Hs as [? ? Hnd Hsc]; subst. rewrite bassoc_assoc in H by exact Ha.
  rewrite only_level; [|exact Ha|apply Hnd; destruct k; cbn in *; congruence].
  destruct (assoc n es) as [w|] eqn:Ev; [|discriminate]. destruct rest as [|r0 rest0]; [eauto|].
  rewrite vget_ne in H by discriminate.
  destruct (IH (object_of (Some w)) v) as (r & ->); [discriminate| | |exact H|].
  - eapply on_child; [exact wf_sub|exact Hw|]. rewrite bassoc_assoc by exact Ha. exact Ev.
  - eapply on_child; [exact single_sub|exact Hs|]. rewrite bassoc_assoc by exact Ha. exact Ev.
  - cbn. destruct r; eauto.
Qed.

(* ---- with_value ---- *)
Definition wp_step (n : str) (rest : list str) (st : conf * slot * bool) (e : str * slot) : res (conf * slot * bool) :=
  let '(acc, v, replaced) := st in
  match snd e with
  | None => Ok st
  | Some ev =>
      if seqb (fst e) n then
        match rest with
        | _ :: _ =>
            bind (with_path_impl rest (object_of (snd e)) v)
                 (fun cv => bind (put acc n (Some (VConf (Some (fst cv))))) (fun acc' => Ok (acc', snd cv, true)))
        | [] => bind (put acc n v) (fun acc' => Ok (acc', None, true))
        end
      else bind (put acc (fst e) (Some ev)) (fun acc' => Ok (acc', v, replaced))
  end.
Definition wp_end (n : str) (rest : list str) (st : conf * slot * bool) : res (conf * slot) :=
  let '(acc, v, replaced) := st in
  if replaced then Ok (acc, v)
  else match rest with
       | _ :: _ =>
           bind (with_path_impl rest None v)
                (fun cv => bind (put acc n (Some (VConf (Some (fst cv))))) (fun acc' => Ok (acc', snd cv)))
       | [] => bind (put acc n v) (fun acc' => Ok (acc', None))
       end.
Lemma with_unfold n rest k es v : is_assoc k = true ->
  with_path_impl (n :: rest) (Some (Conf k es)) v = bind (foldM (wp_step n rest) es (Conf k [], v, false)) (wp_end n rest).
Proof.
  intros Ha. cbn [with_path_impl ckind]. rewrite Ha, empty_copy_spec. cbn [ckind].
  rewrite (foldM_ext _ (fun a e => wp_step n rest a (kv e))).
  - rewrite (fold_iterate (wp_step n rest)). cbn [centries]. apply bind_ext. intros [[acc w] rp]. destruct rest; reflexivity.
  - intros [[acc w] rp] e _. unfold wp_step, kv. cbn [fst snd]. destruct (e_val e); [|reflexivity].
    destruct (seqb (e_key e) n); [|reflexivity]. destruct rest; reflexivity.
Qed.
Lemma with_unfold_null n rest v : with_path_impl (n :: rest) None v = wp_end n rest (Conf KMap [], v, false).
Proof. cbn [with_path_impl iterate size seq map foldM bind empty_copy wp_end]. destruct rest; reflexivity. Qed.

Definition nn (es : list (str * slot)) := filter nonnull es.
Lemma nn_sub es : sublist (map fst (nn es)) (map fst es).
Proof. apply sublist_map, sublist_filter. Qed.
Lemma put_ins k acc n v : is_assoc k = true -> put acc n v = ins k acc n v.
Proof. intros H. unfold ins. rewrite H. reflexivity. Qed.
Lemma wp_skip n rest k es : is_assoc k = true -> forall acc v rp,
  keys_ok k (map fst acc ++ map fst es) -> (forall s, In (n, s) es -> s = None) ->
  foldM (wp_step n rest) es (Conf k acc, v, rp) = Ok (Conf k (acc ++ nn es), v, rp).
Proof.
  intros Ha. induction es as [|[m s] t IH]; intros acc v rp Hk Hn; cbn [foldM].
  - cbn. rewrite app_nil_r. reflexivity.
  - unfold wp_step at 1. cbn [fst snd]. destruct s as [ev|].
    + destruct (seqb m n) eqn:E.
      { apply seqb_spec in E. subst. specialize (Hn (Some ev) (or_introl eq_refl)). discriminate. }
      rewrite (put_ins k) by exact Ha. rewrite ins_snoc.
      * cbn [bind]. rewrite IH.
        -- cbn. rewrite <- app_assoc. reflexivity.
        -- rewrite map_app. cbn. rewrite <- app_assoc. exact Hk.
        -- intros s Hs. apply Hn. right; exact Hs.
      * eapply keys_ok_sub; [|exact Hk]. apply sublist_app; [apply sublist_refl|]. cbn. apply sub_keep. apply sublist_nil.
    + cbn [bind]. rewrite IH.
      * reflexivity.
      * eapply keys_ok_sub; [|exact Hk]. apply sublist_app; [apply sublist_refl|]. cbn. apply sub_skip. apply sublist_refl.
      * intros s Hs. apply Hn. right; exact Hs.
Qed.
Lemma assoc_nn n es : NoDup (map fst es) -> assoc n (nn es) = assoc n es.
Proof.
  intros H. induction es as [|[m s] t IH]; [reflexivity|]. cbn in H. inversion H; subst.
  unfold nn. cbn [filter]. unfold nonnull at 1. cbn [snd]. destruct s as [v|]; rewrite ?assoc_cons.
  - fold (nn t). rewrite IH by assumption. reflexivity.
  - fold (nn t). rewrite IH by assumption. destruct (seqb m n) eqn:E; [|reflexivity].
    apply seqb_spec in E. subst. apply assoc_notin; assumption.
Qed.
Lemma in_nn e es : In e (nn es) -> In e es.
Proof. unfold nn. intros H. apply filter_In in H. tauto. Qed.

Definition bkind (b : option conf) : kind := match b with None => KMap | Some c => ckind c end.
Definition bentries (b : option conf) : list (str * slot) := match b with None => [] | Some c => centries c end.
Definition wp_sub (n : str) (rest : list str) (b : option conf) (v0 : value) : res value :=
  match rest with
  | [] => Ok v0
  | _ :: _ => bind (with_path_impl rest (object_of (bassoc b n)) (Some v0)) (fun cv => Ok (VConf (Some (fst cv))))
  end.
Definition wp_level (n : str) (b : option conf) (x : value) (es' : list (str * slot)) : Prop :=
  keys_ok (bkind b) (map fst es') /\ NoDup (map fst es') /\ assoc n es' = Some x /\
  (forall m, m <> n -> assoc m es' = bassoc b m) /\
  (forall m s, In (m, s) es' -> (m = n /\ s = Some x) \/ In (m, s) (bentries b)).
Lemma with_level n rest b v0 : on wf b -> on single b -> is_assoc (bkind b) = true ->
  (forall b' cv, with_path_impl rest b' (Some v0) = Ok cv -> rest <> [] -> snd cv = None) ->
  match wp_sub n rest b v0 with
  | Ok x => exists es', with_path_impl (n :: rest) b (Some v0) = Ok (Conf (bkind b) es', None) /\ wp_level n b x es'
  | Throw => with_path_impl (n :: rest) b (Some v0) = Throw
  | UB => with_path_impl (n :: rest) b (Some v0) = UB
  | Fuel => with_path_impl (n :: rest) b (Some v0) = Fuel
  end.
Proof.
  intros Hw Hs Ha Hmoved. destruct b as [[k es]|].
  2:{ rewrite with_unfold_null. unfold wp_sub. change (bassoc None n) with (None : slot). cbn [object_of bkind] in *.
      assert (HL : forall x, wp_level n None x [(n, Some x)]).
      { intros x. split; [|split; [|split; [|split]]].
        - cbn. repeat constructor.
        - cbn. repeat constructor. intros [].
        - rewrite assoc_cons, seqb_refl. reflexivity.
        - intros m Hm. rewrite assoc_cons. apply not_eq_sym, seqb_neq in Hm. rewrite Hm. reflexivity.
        - intros m s [H|[]]. injection H as <- <-. auto. }
      unfold wp_end. destruct rest as [|r0 rest0].
      - cbn [bind put map_put]. eauto.
      - destruct (with_path_impl (r0 :: rest0) None (Some v0)) as [cv| | |] eqn:E; cbn [bind]; try reflexivity.
        cbn [put map_put bind]. rewrite (Hmoved _ _ E) by discriminate. eauto. }
  cbn [bkind ckind] in *. rewrite with_unfold by exact Ha.
  inversion Hw as [? ? Hk Hwc]; subst. inversion Hs as [? ? Hnd Hsc]; subst.
  assert (Hnd' : NoDup (map fst es)) by (apply Hnd; destruct k; cbn in *; congruence).
  assert (Hb : forall m, bassoc (Some (Conf k es)) m = assoc m es) by (intros; apply bassoc_assoc; auto).
  unfold wp_sub. rewrite Hb. destruct (assoc n es) as [ev|] eqn:Ev.
  - (* the key is there *)
    apply assoc_in in Ev as Hin. apply in_split in Hin as (pre & post & ->).
    rewrite map_app in Hnd', Hk. cbn [map fst] in Hnd', Hk.
    pose proof (NoDup_remove_2 _ _ _ Hnd') as Hnot. rewrite in_app_iff in Hnot.
    assert (Hpre : forall s, In (n, s) pre -> s = None).
    { intros s Hi. exfalso. apply Hnot. left. change n with (fst (n, s)). apply in_map. exact Hi. }
    assert (Hpost : forall s, In (n, s) post -> s = None).
    { intros s Hi. exfalso. apply Hnot. right. change n with (fst (n, s)). apply in_map. exact Hi. }
    rewrite foldM_app, wp_skip; [|exact Ha| |exact Hpre].
    2:{ cbn. eapply keys_ok_sub; [|exact Hk]. rewrite <- (app_nil_r (map fst pre)) at 1. apply sublist_app; [apply sublist_refl|apply sublist_nil]. }
    cbn [app bind foldM].
    assert (Hput : forall x, put (Conf k (nn pre)) n (Some x) = Ok (Conf k (nn pre ++ [(n, Some x)]))).
    { intros x. rewrite (put_ins k) by exact Ha. apply ins_snoc. eapply keys_ok_sub; [|exact Hk].
      apply sublist_app; [apply nn_sub|]. apply sub_keep. apply sublist_nil. }
    assert (Htail : forall x, foldM (wp_step n rest) post (Conf k (nn pre ++ [(n, Some x)]), None, true) =
                    Ok (Conf k ((nn pre ++ [(n, Some x)]) ++ nn post), None, true)).
    { intros x. apply wp_skip; [exact Ha| |exact Hpost]. rewrite map_app, <- app_assoc. cbn. eapply keys_ok_sub; [|exact Hk].
      apply sublist_app; [apply nn_sub|]. apply sublist_refl. }
    assert (HL : forall x, wp_level n (Some (Conf k (pre ++ (n, Some ev) :: post))) x ((nn pre ++ [(n, Some x)]) ++ nn post)).
    { intros x.
      assert (Hsubl : sublist (map fst ((nn pre ++ [(n, Some x)]) ++ nn post)) (map fst pre ++ n :: map fst post)).
      { rewrite !map_app, <- app_assoc. apply sublist_app; [apply nn_sub|]. cbn. apply sub_keep, nn_sub. }
      assert (Hnd2 : NoDup (map fst ((nn pre ++ [(n, Some x)]) ++ nn post))) by (eapply sublist_nodup; eauto).
      split; [|split; [|split; [|split]]].
      - cbn. eapply keys_ok_sub; eauto.
      - exact Hnd2.
      - apply assoc_nodup; [exact Hnd2|]. rewrite !in_app_iff. cbn. auto.
      - intros m Hm. rewrite Hb.
        assert (Hndo : NoDup (map fst (pre ++ (n, Some ev) :: post))) by (rewrite map_app; exact Hnd').
        rewrite <- (assoc_nn m (pre ++ (n, Some ev) :: post)) by exact Hndo.
        rewrite <- app_assoc. unfold nn at 3. rewrite filter_app. cbn [filter]. unfold nonnull at 2. cbn [snd app].
        fold (nn pre) (nn post). rewrite !assoc_app. rewrite !assoc_cons.
        apply not_eq_sym, seqb_neq in Hm. rewrite Hm. reflexivity.
      - intros m s Hi. rewrite !in_app_iff in Hi. cbn in Hi. cbn [bentries centries]. rewrite in_app_iff. cbn [In].
        destruct Hi as [[Hi|[Hi|[]]]|Hi].
        + right. left. apply in_nn; exact Hi.
        + injection Hi as <- <-. auto.
        + right. right. right. apply in_nn; exact Hi. }
    destruct rest as [|r0 rest0]; cbn [wp_step fst snd]; rewrite seqb_refl.
    + rewrite Hput. cbn [bind]. rewrite Htail. cbn [bind wp_end]. eexists; split; [reflexivity|apply HL].
    + destruct (with_path_impl (r0 :: rest0) (object_of (Some ev)) (Some v0)) as [cv| | |] eqn:E; cbn [bind]; try reflexivity.
      rewrite Hput. cbn [bind]. rewrite (Hmoved _ _ E) by discriminate. rewrite Htail. cbn [bind wp_end].
      eexists; split; [reflexivity|apply HL].
  - (* not found *)
    rewrite wp_skip; [|exact Ha|cbn; exact Hk|].
    2:{ intros s Hi. destruct s as [w|]; [|reflexivity]. rewrite (assoc_nodup n (Some w) es) in Ev by auto. discriminate. }
    cbn [app bind wp_end].
    assert (Hfresh : ~ In n (map fst (nn es))).
    { intros Hi. apply in_map_iff in Hi as ([m s] & Hm & Hi). cbn in Hm. subst m. unfold nn in Hi. apply filter_In in Hi as [Hi Hs'].
      destruct s as [w|]; [|discriminate]. rewrite (assoc_nodup n (Some w) es) in Ev by auto. discriminate. }
    assert (Hokn : keys_ok k (map fst (nn es))) by (eapply keys_ok_sub; [apply nn_sub|exact Hk]).
    assert (HL : forall x, exists es', put (Conf k (nn es)) n (Some x) = Ok (Conf k es') /\ wp_level n (Some (Conf k es)) x es').
    { intros x. destruct (put_fresh k (nn es) n (Some x) Ha Hokn Hfresh) as (es' & H1 & H2 & H3).
      exists es'. split; [exact H1|].
      assert (Hnd1 : NoDup (map fst ((n, Some x) :: nn es))).
      { cbn. constructor; [exact Hfresh|]. eapply sublist_nodup; [apply nn_sub|exact Hnd']. }
      assert (Hnd2 : NoDup (map fst es')).
      { eapply Permutation_NoDup; [apply Permutation_map; symmetry; exact H3|exact Hnd1]. }
      split; [|split; [|split; [|split]]].
      - exact H2.
      - exact Hnd2.
      - apply assoc_nodup; [exact Hnd2|]. eapply Permutation_in; [symmetry; exact H3|left; reflexivity].
      - intros m Hm. rewrite (assoc_perm m es' _ Hnd2 H3), assoc_cons.
        apply not_eq_sym, seqb_neq in Hm. rewrite Hm, Hb. apply assoc_nn. exact Hnd'.
      - intros m s Hi. apply (Permutation_in _ H3) in Hi. destruct Hi as [Hi|Hi]; [injection Hi as <- <-; auto|].
        right. apply in_nn. exact Hi. }
    cbn [object_of]. destruct rest as [|r0 rest0].
    + destruct (HL v0) as (es' & -> & H). cbn [bind]. eauto.
    + destruct (with_path_impl (r0 :: rest0) None (Some v0)) as [cv| | |] eqn:E; cbn [bind]; try reflexivity.
      destruct (HL (VConf (Some (fst cv)))) as (es' & Hp & H). exists es'. split; [|exact H].
      transitivity (bind (Ok (Conf k es')) (fun acc' => Ok (acc', snd cv))); [rewrite <- Hp; reflexivity|].
      rewrite (Hmoved _ _ E) by discriminate. reflexivity.
Qed.

(* the unique_ptr is always consumed *)
Lemma moved t : forall b v cv, t <> [] -> with_path_impl t b v = Ok cv -> snd cv = None.
Proof.
  induction t as [|n rest IH]; intros b v cv Ht H; [congruence|].
  assert (Hend : forall acc w rp, (rp = true -> w = None) -> wp_end n rest (acc, w, rp) = Ok cv -> snd cv = None).
  { intros acc w rp Hrp He. unfold wp_end in He. destruct rp; [injection He as <-; cbn; auto|].
    destruct rest as [|r0 rest0].
    - apply bind_ok in He as (a & _ & He). injection He as <-. reflexivity.
    - apply bind_ok in He as (a & Ha & He). apply bind_ok in He as (a' & _ & He). injection He as <-.
      cbn [snd]; apply (IH None w a); [discriminate|exact Ha]. }
  destruct b as [[k es]|].
  - destruct (is_assoc k) eqn:Ha; [|cbn [with_path_impl ckind] in H; rewrite Ha in H; discriminate].
    rewrite with_unfold in H by exact Ha. apply bind_ok in H as ([[acc w] rp] & Hf & He).
    apply (Hend acc w rp); [|exact He].
    assert (Hinv : forall l st st', foldM (wp_step n rest) l st = Ok st' ->
              (snd st = true -> snd (fst st) = None) -> snd st' = true -> snd (fst st') = None).
    { induction l as [|[m s] l' IHl]; intros [[a0 w0] r0] st' Hl Hst; cbn [foldM] in Hl.
      - injection Hl as <-. exact Hst.
      - apply bind_ok in Hl as ([[a1 w1] r1] & Hstep & Hl). apply (IHl _ _ Hl). clear IHl Hl.
        cbn [fst snd] in *. unfold wp_step in Hstep. cbn [fst snd] in Hstep. destruct s as [ev|].
        + destruct (seqb m n).
          * destruct rest as [|q0 rest0].
            -- apply bind_ok in Hstep as (a2 & _ & Hstep). injection Hstep as <- <- <-. reflexivity.
            -- apply bind_ok in Hstep as (a2 & H2 & Hstep). apply bind_ok in Hstep as (a3 & _ & Hstep). injection Hstep as <- <- <-.
               intros _. eapply IH; [discriminate|exact H2].
          * apply bind_ok in Hstep as (a2 & _ & Hstep). injection Hstep as <- <- <-. exact Hst.
        + injection Hstep as <- <- <-. exact Hst. }
    apply (Hinv _ _ _ Hf). cbn. discriminate.
  - rewrite with_unfold_null in H. apply (Hend _ _ _ (fun E => False_ind _ (diff_false_true E)) H).
Qed.

Definition is_array (v : value) : Prop := exists es, v = VConf (Some (Conf KArray es)).
Definition with_post (b : option conf) (t : list str) (v0 : value) (c' : conf) : Prop :=
  (forall q, cget (Some c') (t ++ q) = vget v0 q) /\
  (forall q, diverges t q -> cget (Some c') q = cget b q) /\
  (forall q, proper_prefix q t -> exists v', cget (Some c') q = Some v' /\ object v').
Lemma with_spec t : forall b v0, t <> [] -> on wf b -> on single b -> on_value wf v0 -> on_value single v0 ->
  (forall q v, proper_prefix q t -> cget b q = Some v -> ~ is_array v) ->
  exists c', with_path_impl t b (Some v0) = Ok (c', None) /\ with_post b t v0 c' /\
             wf c' /\ single c' /\ ckind c' = bkind b.
Proof.
  induction t as [|n rest IH]; intros b v0 Ht Hw Hs Hvw Hvs Hway; [congruence|].
  assert (Ha : is_assoc (bkind b) = true).
  { destruct b as [[k es]|]; [|reflexivity]. cbn. destruct k; try reflexivity. exfalso.
    apply (Hway [] (VConf (Some (Conf KArray es)))); [exists n, rest; reflexivity|reflexivity|exists es; reflexivity]. }
  pose proof (with_level n rest b v0 Hw Hs Ha (fun b' cv H1 H2 => moved rest b' _ cv H2 H1)) as HL.
  assert (Hx : exists x, wp_sub n rest b v0 = Ok x /\ on_value wf x /\ on_value single x /\
             match rest with
             | [] => x = v0
             | _ => object x /\ with_post (object_of (bassoc b n)) rest v0 (match x with VConf (Some c) => c | _ => Conf KMap [] end)
             end).
  { unfold wp_sub. destruct rest as [|r0 rest0]; [exists v0; auto|].
    destruct (IH (object_of (bassoc b n)) v0) as (c' & E & Hp & H1 & H2 & H3); auto; try discriminate.
    - eapply on_child; [exact wf_sub|exact Hw|reflexivity].
    - eapply on_child; [exact single_sub|exact Hs|reflexivity].
    - intros q v Hq Hv Harr. destruct (bassoc b n) as [w|] eqn:Ew.
      + destruct q as [|q0 q'].
        * cbn in Hv. injection Hv as <-. destruct Harr as (es & Harr).
          apply (Hway [n] w); [exists r0, rest0; reflexivity|rewrite cget_cons, Ew; reflexivity|].
          exists es. cbn in Harr. destruct w as [| | | |c]; cbn in Harr; try discriminate. exact Harr.
        * apply (Hway (n :: q0 :: q') v); [destruct Hq as (m & r & Hr); exists m, r; cbn; rewrite Hr; reflexivity| |exact Harr].
          rewrite cget_cons, Ew, vget_as_conf. exact Hv.
      + destruct q as [|q0 q']; [|discriminate]. cbn in Hv. injection Hv as <-. destruct Harr as (es & Harr). discriminate.
    - exists (VConf (Some c')). rewrite E. cbn [bind fst]. split; [reflexivity|]. split; [exact H1|]. split; [exact H2|].
      split; [|exact Hp]. destruct Hp as (_ & _ & Hp). destruct (Hp []) as (w & Hw' & Hob); [exists r0, rest0; reflexivity|].
      cbn in Hw'. injection Hw' as <-. exact Hob. }
  destruct Hx as (x & Ex & Hxw & Hxs & Hx). rewrite Ex in HL.
  destruct HL as (es' & E & Hk & Hnd & Hn & Hother & Hin).
  exists (Conf (bkind b) es'). split; [exact E|].
  assert (Hb' : forall m, bassoc (Some (Conf (bkind b) es')) m = assoc m es') by (intros; apply bassoc_assoc; auto).
  assert (Hold : forall m c, In (m, Some (VConf (Some c))) (bentries b) -> on wf b -> on single b -> wf c /\ single c).
  { intros m c Hi H1 H2. destruct b as [[k es]|]; [|destruct Hi]. cbn in Hi. split; [eapply wf_sub|eapply single_sub]; eauto. }
  split; [|split; [|split; [|reflexivity]]].
  - split; [|split].
    + intros q. cbn [app]. rewrite cget_cons, Hb', Hn. destruct rest as [|r0 rest0].
      * subst x. reflexivity.
      * destruct Hx as [Hob (P1 & _)]. destruct (object_of_object x Hob) as (k1 & es1 & _ & _ & ->).
        apply P1.
    + intros q Hq. destruct q as [|m q]; [destruct (diverges_nil _ Hq)|].
      rewrite !cget_cons, Hb'. destruct (diverges_cons _ _ _ _ Hq) as [Hm|[-> Hd]].
      * rewrite Hother by exact Hm. reflexivity.
      * rewrite Hn. destruct rest as [|r0 rest0]; [destruct (diverges_nil_l _ Hd)|].
        destruct Hx as [Hob (_ & P2 & _)]. destruct (object_of_object x Hob) as (k1 & es1 & _ & _ & ->).
        assert (q <> []) by (intros ->; destruct (diverges_nil _ Hd)).
        change (vget (VConf (Some (Conf k1 es1))) q) with (cget (Some (Conf k1 es1)) q). rewrite P2 by exact Hd.
        destruct (bassoc b n) as [w|]; [rewrite vget_ne by assumption; reflexivity|].
        destruct q; [congruence|reflexivity].
    + intros q Hq. destruct (proper_cons _ _ _ Hq) as [->|(q' & -> & Hq')].
      * eexists. split; [reflexivity|]. apply object_intro; exact Ha.
      * rewrite cget_cons, Hb', Hn. destruct rest as [|r0 rest0]; [destruct Hq' as (m & r & Hr); destruct q'; discriminate|].
        destruct Hx as [Hob (_ & _ & P3)]. destruct (object_of_object x Hob) as (k1 & es1 & _ & _ & ->).
        apply P3. exact Hq'.
  - constructor; [exact Hk|]. intros m c Hi. destruct (Hin _ _ Hi) as [[-> Hc]|Hi'].
    + injection Hc as <-. exact Hxw.
    + eapply Hold; eauto.
  - constructor; [intros _; exact Hnd|]. intros m c Hi. destruct (Hin _ _ Hi) as [[-> Hc]|Hi'].
    + injection Hc as <-. exact Hxs.
    + eapply Hold; eauto.
Qed.
Lemma with_throw t : forall b v0 q v, on wf b -> on single b ->
  proper_prefix q t -> cget b q = Some v -> is_array v -> with_path_impl t b (Some v0) = Throw.
Proof.
  induction t as [|n rest IH]; intros b v0 q v Hw Hs Hq Hv Harr.
  { destruct Hq as (m & r & Hr). destruct q; discriminate. }
  destruct (is_assoc (bkind b)) eqn:Ha.
  2:{ destruct b as [[k es]|]; [|discriminate]. cbn [bkind ckind] in Ha. cbn [with_path_impl ckind]. rewrite Ha. reflexivity. }
  pose proof (with_level n rest b v0 Hw Hs Ha (fun b' cv H1 H2 => moved rest b' _ cv H2 H1)) as HL.
  destruct (proper_cons _ _ _ Hq) as [->|(q' & -> & Hq')].
  { cbn in Hv. injection Hv as <-. destruct Harr as (es & Harr). injection Harr as ->. discriminate. }
  assert (Hr : rest <> []) by (intros ->; destruct Hq' as (m & r & Hr); destruct q'; discriminate).
  assert (E : with_path_impl rest (object_of (bassoc b n)) (Some v0) = Throw).
  { rewrite cget_cons in Hv. destruct (bassoc b n) as [w|] eqn:Ew; [|discriminate].
    assert (Hobj : cget (object_of (Some w)) q' = Some v).
    { destruct q' as [|q0 q'']; [|rewrite <- vget_as_conf; exact Hv].
      cbn in Hv. injection Hv as ->. destruct Harr as (es & ->). reflexivity. }
    eapply IH; [| |exact Hq'|exact Hobj|exact Harr].
    - eapply on_child; [exact wf_sub|exact Hw|exact Ew].
    - eapply on_child; [exact single_sub|exact Hs|exact Ew]. }
  unfold wp_sub in HL. destruct rest as [|r0 rest0]; [congruence|]. rewrite E in HL. exact HL.
Qed.
