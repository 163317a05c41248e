(* Lemmas about the copying functions of manual_config_base.cpp except merge. *)
From Coq Require Import Ascii List Bool Arith NArith ZArith Lia Sorting.Sorted Sorting.Permutation.
From Verif Require Import ConfigModel ConfigSpec ConfigProofs.
Import ListNotations.

Lemma mapM_id g es : (forall e, In e es -> g e = Ok (Some (snd e))) -> mapM g es = Ok es.
Proof.
  induction es as [|[n s] t IH]; intros H; cbn; [reflexivity|].
  rewrite H by (left; reflexivity). cbn. rewrite IH by (intros; apply H; right; auto). reflexivity.
Qed.
Lemma mapM_filter g (f : str * slot -> bool) es : (forall e, In e es -> g e = Ok (if f e then Some (snd e) else None)) -> mapM g es = Ok (filter f es).
Proof.
  induction es as [|[n s] t IH]; intros H; cbn; [reflexivity|].
  rewrite H by (left; reflexivity). cbn. rewrite IH by (intros; apply H; right; auto).
  destruct (f (n, s)); reflexivity.
Qed.
Lemma mapM_ok g es : (forall e, In e es -> exists o, g e = Ok o) -> exists es', mapM g es = Ok es'.
Proof.
  induction es as [|e t IH]; intros H; cbn; [eauto|].
  destruct (H e) as (o & ->); [left; reflexivity|]. cbn.
  destruct IH as (t' & ->); [intros; apply H; right; auto|]. cbn. eauto.
Qed.
Lemma assoc_mapM g es es' m s o : NoDup (map fst es) -> mapM g es = Ok es' -> In (m, s) es -> g (m, s) = Ok o ->
  assoc m es' = match o with Some v => v | None => None end.
Proof.
  revert es'; induction es as [|[n w] t IH]; intros es' Hnd H Hi Hg; [destruct Hi|].
  cbn in Hnd. inversion Hnd; subst. cbn in H.
  apply bind_ok in H as (o1 & Ho1 & H). apply bind_ok in H as (t' & Ht & H). injection H as <-.
  assert (Hsub := mapM_sub _ _ _ Ht).
  destruct Hi as [Hi|Hi].
  - injection Hi as -> ->. rewrite Hg in Ho1. injection Ho1 as <-. destruct o as [v|].
    + rewrite assoc_cons. cbn [fst]. rewrite seqb_refl. reflexivity.
    + apply assoc_notin. intros Hc. apply H2. eapply sublist_in; eauto.
  - assert (Hne : n <> m) by (intros ->; apply H2; change m with (fst (m, s)); apply in_map; exact Hi).
    specialize (IH t' H3 Ht Hi Hg).
    destruct o1 as [v|]; [|exact IH]. rewrite assoc_cons. cbn [fst]. apply seqb_neq in Hne. rewrite Hne. exact IH.
Qed.
Lemma assoc_mapM_none g es es' m : mapM g es = Ok es' -> ~ In m (map fst es) -> assoc m es' = None.
Proof. intros H Hn. apply assoc_notin. intros Hc. apply Hn. eapply sublist_in; [eapply mapM_sub; eauto|exact Hc]. Qed.

(* ---- clone ---- *)
Lemma copy_unfold fuel deep k es : keys_ok k (map fst es) ->
  copy_impl (S fuel) deep (Some (Conf k es)) =
  bind (mapM (fun e => bind (match snd e with
                             | None => Ok None
                             | Some v => if deep && is_conf v
                                         then bind (copy_impl fuel true (object_of (Some v))) (fun c' => Ok (Some (VConf c')))
                                         else Ok (Some v)
                             end) (fun vc => Ok (Some vc))) es)
       (fun es' => Ok (Some (Conf k es'))).
Proof.
  intros H. cbn [copy_impl]. rewrite empty_copy_spec. cbn [ckind].
  rewrite (foldM_ext _ (fun a e => step_of k (fun e => bind (match snd e with
                             | None => Ok None
                             | Some v => if deep && is_conf v
                                         then bind (copy_impl fuel true (object_of (Some v))) (fun c' => Ok (Some (VConf c')))
                                         else Ok (Some v)
                             end) (fun vc => Ok (Some vc))) a (kv e))).
  - rewrite (fold_iterate (step_of k _)), fold_ins by (cbn; exact H). cbn [centries app]. rewrite bind_assoc. reflexivity.
  - intros a e _. unfold step_of, kv. cbn [fst snd]. rewrite bind_assoc. apply bind_ext. intros v. reflexivity.
Qed.
Lemma clone_id fuel : forall b, fuel > nodes_b b -> on wf b -> copy_impl fuel true b = Ok b.
Proof.
  induction fuel as [|fuel IH]; intros b Hf Hw; [lia|].
  destruct b as [[k es]|]; [|reflexivity]. inversion Hw as [? ? Hk Hs]; subst.
  rewrite copy_unfold by exact Hk. rewrite mapM_id; [reflexivity|].
  intros [n s] Hin. cbn [snd]. destruct s as [v|]; [|reflexivity].
  destruct v as [| | | |c]; cbn [is_conf andb]; try reflexivity. cbn [object_of as_conf].
  rewrite IH.
  - reflexivity.
  - destruct c as [c|]; [|cbn in *; lia]. pose proof (nodes_conf k es n c Hin). cbn [nodes_b] in *. lia.
  - destruct c as [c|]; cbn; [|exact I]. eauto.
Qed.
Lemma shallow_id b : on wf b -> shallow_copy b = Ok b.
Proof.
  intros Hw. destruct b as [[k es]|]; [|reflexivity]. inversion Hw as [? ? Hk Hs]; subst.
  unfold shallow_copy. rewrite copy_unfold by exact Hk. rewrite mapM_id; [reflexivity|].
  intros [n s] Hin. cbn [snd]. destruct s as [v|]; reflexivity.
Qed.

(* ---- filters ---- *)
Definition nonnull (e : str * slot) : bool := match snd e with Some _ => true | None => false end.
Lemma filter_spec k es names white : is_assoc k = true -> keys_ok k (map fst es) ->
  with_filter (Some (Conf k es)) names white =
  Ok (Some (Conf k (filter (fun e => nonnull e && eqb white (existsb (seqb (fst e)) names)) es))).
Proof.
  intros Ha Hk. unfold with_filter. cbn [ckind]. rewrite Ha, empty_copy_spec. cbn [ckind].
  rewrite (foldM_ext _ (fun a e => step_of k (fun e => Ok (if nonnull e && eqb white (existsb (seqb (fst e)) names)
                                                            then Some (snd e) else None)) a (kv e))).
  - rewrite (fold_iterate (step_of k _)), fold_ins by (cbn; exact Hk). cbn [centries app].
    rewrite (mapM_filter _ (fun e => nonnull e && eqb white (existsb (seqb (fst e)) names))); [reflexivity|].
    reflexivity.
  - intros a e _. unfold step_of, kv, nonnull, ins. cbn [fst snd bind]. rewrite Ha.
    destruct (e_val e); cbn [andb]; [|reflexivity]. destruct (eqb white _); reflexivity.
Qed.

(* ---- without_path ---- *)
Definition wo_g (n : str) (rest : list str) (e : str * slot) : res (option slot) :=
  match snd e with
  | None => Ok None
  | Some ev =>
      if seqb (fst e) n then
        match rest with
        | _ :: _ => bind (without_path_impl rest (object_of (snd e))) (fun child => Ok (Some (Some (VConf child))))
        | [] => Ok None
        end
      else Ok (Some (Some ev))
  end.
Lemma without_unfold n rest k es : is_assoc k = true -> keys_ok k (map fst es) ->
  without_path_impl (n :: rest) (Some (Conf k es)) =
  bind (mapM (wo_g n rest) es) (fun es' => Ok (Some (Conf k es'))).
Proof.
  intros Ha Hk. cbn [without_path_impl ckind]. rewrite Ha, empty_copy_spec. cbn [ckind].
  rewrite (foldM_ext _ (fun a e => step_of k (wo_g n rest) a (kv e))).
  - rewrite (fold_iterate (step_of k _)), fold_ins by (cbn; exact Hk). cbn [centries app]. rewrite bind_assoc. reflexivity.
  - intros a e _. unfold step_of, kv, wo_g, ins. cbn [fst snd]. rewrite Ha.
    destruct (e_val e) as [ev|]; [|reflexivity]. destruct (seqb (e_key e) n) eqn:E.
    + apply seqb_spec in E. subst n. destruct rest; [reflexivity|]. rewrite bind_assoc. reflexivity.
    + reflexivity.
Qed.

Lemma cget_app b p q : cget b (p ++ q) = match cget b p with Some v => vget v q | None => None end.
Proof.
  unfold cget. generalize (VConf b : value). induction p as [|n p IH]; intros v; [reflexivity|].
  cbn [app vget]. destruct (child v n); [apply IH|reflexivity].
Qed.
Lemma on_child (P : conf -> Prop) b n s :
  (forall k es, P (Conf k es) -> forall m c, In (m, Some (VConf (Some c))) es -> P c) ->
  on P b -> bassoc b n = s -> on P (object_of s).
Proof.
  intros HP Hb <-. destruct b as [[k es]|]; [|exact I].
  destruct (bassoc (Some (Conf k es)) n) as [v|] eqn:E; [|exact I].
  apply bassoc_in in E. destruct v as [| | | |[c|]]; cbn; try exact I. eapply HP; eauto.
Qed.
Lemma wf_sub k es : wf (Conf k es) -> forall m c, In (m, Some (VConf (Some c))) es -> wf c.
Proof. intros H; inversion H; subst; auto. Qed.
Lemma single_sub k es : single (Conf k es) -> forall m c, In (m, Some (VConf (Some c))) es -> single c.
Proof. intros H; inversion H; subst; auto. Qed.
Lemma object_of_object v : object v -> exists k es, object_of (Some v) = Some (Conf k es) /\ is_assoc k = true /\ v = VConf (Some (Conf k es)).
Proof. destruct v as [| | | |[[k es]|]]; cbn; try contradiction. intros H. exists k, es. destruct k; intuition. Qed.
Lemma object_intro k es : is_assoc k = true -> object (VConf (Some (Conf k es))).
Proof. destruct k; cbn; congruence. Qed.
Lemma in_keys_assoc n es : NoDup (map fst es) -> (exists s, In (n, s) es /\ assoc n es = s) \/ (~ In n (map fst es) /\ assoc n es = None).
Proof.
  intros H. destruct (in_dec (list_eq_dec ascii_dec) n (map fst es)) as [Hi|Hi].
  - left. apply in_map_iff in Hi as ([m s] & Hm & Hi). cbn in Hm; subst m. exists s. split; auto. apply assoc_nodup; auto.
  - right. split; auto. apply assoc_notin; auto.
Qed.

(* the way down contains objects only *)
Definition way_ok (b : option conf) (t : list str) : Prop :=
  forall q v, proper_prefix q t -> cget b q = Some v -> object v.
Lemma way_child b n t : way_ok b (n :: t) -> forall v, bassoc b n = Some v ->
  forall q w, proper_prefix q t -> vget v q = Some w -> object w.
Proof.
  intros H v E q w (m & r & ->) Hw. apply (H (n :: q) w).
  - exists m, r. reflexivity.
  - rewrite cget_cons, E. exact Hw.
Qed.

Definition wo_post (b : option conf) (t : list str) (c' : conf) : Prop :=
  wf c' /\ single c' /\
  (forall q, prefix t q -> cget (Some c') q = None) /\
  (forall q, diverges t q -> cget (Some c') q = cget b q) /\
  (forall q, proper_prefix q t -> match cget b q with
                                  | Some v => exists v', cget (Some c') q = Some v' /\ object v'
                                  | None => cget (Some c') q = None
                                  end).
Lemma without_spec t : forall b, t <> [] -> on wf b -> on single b -> way_ok b t ->
  exists c', without_path_impl t b = Ok (Some c') /\ wo_post b t c' /\ option_map ckind b = Some (ckind c').
Proof.
  induction t as [|n rest IH]; intros b Ht Hw Hs Hway; [congruence|].
  assert (Hob : object (VConf b)).
  { apply (Hway []); [exists n, rest; reflexivity|reflexivity]. }
  destruct b as [[k es]|]; [|destruct Hob]. assert (Ha : is_assoc k = true) by (destruct k; cbn in Hob |- *; congruence).
  inversion Hw as [? ? Hk Hwc]; subst. inversion Hs as [? ? Hnd Hsc]; subst.
  specialize (Hnd Hob). rewrite without_unfold by assumption.
  assert (Hchild : forall v, rest <> [] -> assoc n es = Some v ->
            exists c', without_path_impl rest (object_of (Some v)) = Ok (Some c') /\ wo_post (object_of (Some v)) rest c').
  { intros v Hr E. assert (E' : bassoc (Some (Conf k es)) n = Some v) by (rewrite bassoc_assoc; auto).
    destruct (IH (object_of (Some v))) as (c' & H1 & H2 & _); [assumption| | | |eauto].
    - eapply on_child; [exact wf_sub|exact Hw|exact E'].
    - eapply on_child; [exact single_sub|exact Hs|exact E'].
    - intros q w Hq Hgw. destruct rest as [|r0 rest0]; [congruence|].
      destruct q as [|q0 q'].
      + assert (Hov : object v) by (eapply (way_child _ _ _ Hway _ E' []); [exists r0, rest0; reflexivity|reflexivity]).
        destruct (object_of_object v Hov) as (k1 & es1 & E1 & Ha1 & E2). rewrite E1 in Hgw.
        cbn in Hgw. injection Hgw as <-. apply object_intro; auto.
      + apply (way_child _ _ _ Hway _ E' (q0 :: q')); [exact Hq|]. rewrite vget_as_conf. exact Hgw. }
  destruct (mapM_ok (wo_g n rest) es) as (es' & Hes').
  { intros [m s] Hin. unfold wo_g. cbn [fst snd]. destruct s as [v|]; [|eauto].
    destruct (seqb m n) eqn:E; [|eauto]. apply seqb_spec in E. subst m. destruct rest as [|r0 rest0]; [eauto|].
    destruct (Hchild v) as (c' & -> & _); [discriminate|apply assoc_nodup; auto|]. cbn. eauto. }
  rewrite Hes'. cbn [bind]. eexists. split; [reflexivity|].
  assert (Hsub := mapM_sub _ _ _ Hes').
  assert (Hother : forall m, m <> n -> assoc m es' = assoc m es).
  { intros m Hm. destruct (in_keys_assoc m es Hnd) as [(s & Hi & E)|[Hi E]].
    - rewrite E. apply seqb_neq in Hm. erewrite assoc_mapM; [|exact Hnd|exact Hes'|exact Hi|].
      2:{ unfold wo_g. cbn [fst snd]. rewrite Hm. instantiate (1 := match s with None => None | Some v => Some (Some v) end).
          destruct s; reflexivity. }
      destruct s; reflexivity.
    - rewrite E. eapply assoc_mapM_none; eauto. }
  assert (Hthis : match rest with
                  | [] => assoc n es' = None
                  | _ => match assoc n es with
                         | None => assoc n es' = None
                         | Some v => exists c', assoc n es' = Some (VConf (Some c')) /\
                                     without_path_impl rest (object_of (Some v)) = Ok (Some c') /\ wo_post (object_of (Some v)) rest c'
                         end
                  end).
  { destruct (in_keys_assoc n es Hnd) as [(s & Hi & E)|[Hi E]].
    - destruct rest as [|r0 rest0].
      + erewrite assoc_mapM; [|exact Hnd|exact Hes'|exact Hi|].
        2:{ unfold wo_g. cbn [fst snd]. rewrite seqb_refl. instantiate (1 := None). destruct s; reflexivity. }
        reflexivity.
      + rewrite E. destruct s as [v|].
        * destruct (Hchild v) as (c' & H1 & H2); [discriminate|exact E|]. exists c'. split; [|auto].
          erewrite assoc_mapM; [|exact Hnd|exact Hes'|exact Hi|].
          2:{ unfold wo_g. cbn [fst snd]. rewrite seqb_refl, H1. reflexivity. }
          reflexivity.
        * erewrite assoc_mapM; [|exact Hnd|exact Hes'|exact Hi|reflexivity]. reflexivity.
    - assert (assoc n es' = None) by (eapply assoc_mapM_none; eauto). rewrite E. destruct rest; assumption. }
  split; [|reflexivity].
  assert (Hb' : forall m, bassoc (Some (Conf k es')) m = assoc m es') by (intros; apply bassoc_assoc; auto).
  assert (Hb : forall m, bassoc (Some (Conf k es)) m = assoc m es) by (intros; apply bassoc_assoc; auto).
  assert (Hin' : forall m c, In (m, Some (VConf (Some c))) es' ->
            In (m, Some (VConf (Some c))) es \/ (m = n /\ assoc n es' = Some (VConf (Some c)))).
  { intros m c Hi. destruct (mapM_in _ _ _ _ _ Hes' Hi) as (s & Hi' & Hg). unfold wo_g in Hg. cbn [fst snd] in Hg.
    destruct s as [v|]; [|discriminate]. destruct (seqb m n) eqn:E.
    - apply seqb_spec in E. subst. right. split; [reflexivity|]. apply assoc_nodup; [|exact Hi]. eapply sublist_nodup; eauto.
    - injection Hg as ->. left. exact Hi'. }
  unfold wo_post. repeat match goal with |- _ /\ _ => split end.
  - constructor.
    + eapply keys_ok_sub; eauto.
    + intros m c Hi. destruct (Hin' m c Hi) as [H|[-> E]]; [eauto|].
      destruct rest as [|r0 rest0]; [congruence|]. destruct (assoc n es) as [v|]; [|congruence].
      destruct Hthis as (c' & E' & _ & Hp). rewrite E in E'. injection E' as <-. apply Hp.
  - constructor.
    + intros _. eapply sublist_nodup; eauto.
    + intros m c Hi. destruct (Hin' m c Hi) as [H|[-> E]]; [eauto|].
      destruct rest as [|r0 rest0]; [congruence|]. destruct (assoc n es) as [v|]; [|congruence].
      destruct Hthis as (c' & E' & _ & Hp). rewrite E in E'. injection E' as <-. apply Hp.
  - intros q (r & ->). cbn [app]. rewrite cget_cons, Hb'. destruct rest as [|r0 rest0].
    + rewrite Hthis. reflexivity.
    + destruct (assoc n es) as [v|].
      * destruct Hthis as (c' & -> & _ & Hp). apply Hp. exists r. reflexivity.
      * rewrite Hthis. reflexivity.
  - intros q [Hq1 Hq2]. destruct q as [|m q]; [exfalso; apply Hq2; exists (n :: rest); reflexivity|].
    rewrite !cget_cons, Hb, Hb'. destruct (list_eq_dec ascii_dec m n) as [->|Hm]; [|rewrite Hother by exact Hm; reflexivity].
    destruct rest as [|r0 rest0].
    + exfalso. apply Hq1. exists q. reflexivity.
    + destruct (assoc n es) as [v|].
      * destruct Hthis as (c' & -> & _ & Hp).
        assert (Hd : diverges (r0 :: rest0) q).
        { split; intros (r & Hr); [apply Hq1|apply Hq2]; exists r; cbn; [rewrite Hr|rewrite <- Hr]; rewrite ?Hr; reflexivity. }
        destruct q as [|q0 q'].
        { exfalso. apply (proj2 Hd). exists (r0 :: rest0). reflexivity. }
        change (vget (VConf (Some c')) (q0 :: q')) with (cget (Some c') (q0 :: q')).
        rewrite vget_as_conf. apply Hp. exact Hd.
      * rewrite Hthis. reflexivity.
  - intros q Hq. destruct q as [|m q].
    + cbn. eexists. split; [reflexivity|]. apply object_intro; auto.
    + destruct Hq as (x & r & Hr). cbn in Hr. injection Hr as <- Hr.
      rewrite !cget_cons, Hb, Hb'. destruct rest as [|r0 rest0]; [destruct q; discriminate|].
      destruct (assoc n es) as [v|] eqn:Ev.
      * destruct Hthis as (c' & -> & _ & Hp).
        destruct q as [|q0 q'].
        { cbn [vget]. eexists. split; [reflexivity|].
          assert (Hpp : proper_prefix [] (r0 :: rest0)) by (exists r0, rest0; reflexivity).
          destruct Hp as (_ & _ & _ & _ & Hp5). specialize (Hp5 [] Hpp). cbn in Hp5.
          destruct Hp5 as (v' & Hv' & Hobj). injection Hv' as <-. exact Hobj. }
        change (vget (VConf (Some c')) (q0 :: q')) with (cget (Some c') (q0 :: q')).
        rewrite vget_as_conf. apply Hp. exists x, r. exact Hr.
      * rewrite Hthis. reflexivity.
Qed.
