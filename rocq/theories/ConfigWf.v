(* Every config that can be made with the builder and the copying functions is
   well formed. *)
From Coq Require Import Ascii List Bool Arith Lia Sorting.Sorted Permutation.
From Verif Require Import ConfigModel ConfigSpec ConfigProofs ConfigCopy ConfigBuild.
Import ListNotations.

Definition slot_wf (s : slot) : Prop := match s with Some v => on_value wf v | None => True end.
Lemma foldM_inv {A B} (P : A -> Prop) (f : A -> B -> res A) l :
  (forall a x a', P a -> In x l -> f a x = Ok a' -> P a') -> forall a a', P a -> foldM f l a = Ok a' -> P a'.
Proof.
  induction l as [|x t IH]; intros H a a' Ha E; [injection E as <-; exact Ha|]. cbn in E. apply bind_ok in E as (a1 & E1 & E).
  apply (IH (fun a0 y a1' P0 Hi => H a0 y a1' P0 (or_intror Hi)) a1 a'); [|exact E]. eapply H; eauto. left; reflexivity.
Qed.
Lemma put_wf_slot c k s c' : wf c -> slot_wf s -> put c k s = Ok c' -> wf c'.
Proof.
  intros Hw Hv H. destruct c as [kk es]. inversion Hw as [? ? Hk Hs]; subst.
  assert (Hval : forall c0, s = Some (VConf (Some c0)) -> wf c0) by (intros c0 ->; exact Hv).
  destruct kk; cbn in H; try discriminate; injection H as <-; constructor; cbn [keys_ok] in *.
  - apply map_put_sorted. exact Hk.
  - intros n c0 Hi. apply map_put_in in Hi as [[_ Hi]|Hi]; [apply Hval; symmetry; exact Hi|eauto].
  - apply multi_put_sorted. exact Hk.
  - intros n c0 Hi. apply multi_put_in in Hi as [Hi|Hi]; [injection Hi as _ Hi; auto|eauto].
  - apply ord_put_nodup. exact Hk.
  - intros n c0 Hi. apply ord_put_in in Hi as [[_ Hi]|Hi]; [apply Hval; symmetry; exact Hi|eauto].
Qed.
Lemma add_wf_slot c s c' : wf c -> slot_wf s -> add c s = Ok c' -> wf c'.
Proof.
  intros Hw Hv H. destruct c as [[] es]; try discriminate. injection H as <-. inversion Hw as [? ? Hk Hs]; subst. constructor.
  - cbn in *. rewrite map_app. apply Forall_app. split; [exact Hk|]. repeat constructor.
  - intros n c0 Hi. apply in_app_iff in Hi as [Hi|[Hi|[]]]; [eauto|]. injection Hi as _ ->. exact Hv.
Qed.
Lemma empty_copy_wf b : wf (empty_copy b).
Proof.
  assert (H : forall k, wf (Conf k [])) by (intros k; constructor; [destruct k; constructor|intros n c []]).
  destruct b as [[[] es]|]; apply H.
Qed.
Lemma entry_wf b e : on wf b -> In e (iterate b) -> slot_wf (e_val e).
Proof.
  intros Hw Hi. destruct b as [c|]; [|destruct Hi]. apply (in_map kv) in Hi. rewrite iterate_kv in Hi.
  destruct c as [k es]. inversion Hw as [? ? _ Hs]; subst. cbn in Hi. unfold kv in Hi.
  destruct (e_val e) as [[| | | |[c|]]|]; cbn; auto. eapply Hs; eauto.
Qed.
Lemma object_of_wf s : slot_wf s -> on wf (object_of s).
Proof. destruct s as [[| | | |[c|]]|]; cbn; auto. Qed.
Lemma find_key_wf c n : wf c -> slot_wf (snd (find_key c n)).
Proof.
  intros Hw. rewrite find_key_snd. destruct (bassoc (Some c) n) as [v|] eqn:E; [|exact I]. cbn.
  destruct v as [| | | |[d|]]; cbn; auto. apply bassoc_in in E. destruct c as [k es]. inversion Hw; subst. eauto.
Qed.
Lemma resolve_wf t : forall b, on wf b -> slot_wf (e_val (resolve b t)).
Proof.
  induction t as [|n rest IH]; intros b Hw; [exact I|]. destruct b as [c|]; [|exact I]. cbn [resolve].
  pose proof (find_key_wf c n Hw) as Hf. destruct (find_key c n) as [i v]. cbn in Hf. destruct (tok_has_next rest); [|exact Hf].
  apply IH. apply object_of_wf. exact Hf.
Qed.
Lemma at_key_wf b n : on wf b -> slot_wf (e_val (at_key b n)).
Proof. apply resolve_wf. Qed.

Lemma copy_wf f : forall deep b b', on wf b -> copy_impl f deep b = Ok b' -> on wf b'.
Proof.
  induction f as [|f IH]; intros deep b b' Hw H; [discriminate|]. destruct b as [c|]; [|injection H as <-; exact I].
  cbn [copy_impl] in H. apply bind_ok in H as (c' & H & [= <-]). cbn [on].
  eapply foldM_inv; [|apply empty_copy_wf|exact H]. intros a e a' Ha Hi E. apply bind_ok in E as (vc & E1 & E2).
  pose proof (entry_wf _ _ Hw Hi) as He.
  assert (Hvc : slot_wf vc).
  { destruct (e_val e) as [v|]; [|injection E1 as <-; exact I]. destruct (deep && is_conf v).
    - apply bind_ok in E1 as (c2 & E1 & [= <-]). apply IH in E1; [|apply object_of_wf; exact He]. destruct c2; exact E1.
    - injection E1 as <-. exact He. }
  destruct (is_assoc (ckind c)); [eapply put_wf_slot; eauto|eapply add_wf_slot; eauto].
Qed.
Lemma merge_wf f : forall l r m, on wf l -> on wf r -> merge_impl f l r = Ok m -> wf m.
Proof.
  induction f as [|f IH]; intros l r m Hl Hr H; [discriminate|]. cbn [merge_impl] in H.
  match type of H with (if ?c then _ else _) = _ => destruct c; [|discriminate] end.
  set (J := if multi_b l || multi_b r then Conf KMulti [] else Conf KMap []) in *.
  assert (HJ : wf J) by (unfold J; destruct (multi_b l || multi_b r); constructor; try constructor; intros n c []).
  clearbody J. apply bind_ok in H as (a1 & H1 & H2).
  assert (Hstep : forall b, (b = l \/ b = r) -> forall a k a', wf a ->
    (if is_common (set_inter (ssort (keys l)) (ssort (keys r))) k then
       match e_val (at_key l k), e_val (at_key r k) with
          | Some lv, Some rv =>
              match lv, rv with
              | VConf lc, VConf rc =>
                  if assoc_b lc && assoc_b rc
                  then bind (merge_impl f lc rc) (fun m => put a k (Some (VConf (Some m))))
                  else put a k (Some (copy_value lv))
              | _, _ => put a k (Some (copy_value lv))
              end
          | _, _ => Throw
          end
     else match e_val (at_key b k) with
               | Some v => put a k (Some (copy_value v))
               | None => Ok a
               end) = Ok a' -> wf a').
  { intros b Hb a k a' Ha E. pose proof (at_key_wf l k Hl) as Wl. pose proof (at_key_wf r k Hr) as Wr.
    assert (Wb : slot_wf (e_val (at_key b k))) by (destruct Hb; subst; assumption).
    destruct (is_common _ k).
    - destruct (e_val (at_key l k)) as [lv|]; [|discriminate]. destruct (e_val (at_key r k)) as [rv|]; [|discriminate].
      assert (Hput : put a k (Some (copy_value lv)) = Ok a' -> wf a') by (intros E'; eapply put_wf_slot; [exact Ha|exact Wl|exact E']).
      destruct lv as [| | | |lc]; try exact (Hput E). destruct rv as [| | | |rc]; try exact (Hput E).
      destruct (assoc_b lc && assoc_b rc); [|exact (Hput E)]. apply bind_ok in E as (m' & E1 & E2).
      eapply put_wf_slot; [exact Ha| |exact E2]. cbn. apply (IH lc rc m'); [destruct lc; auto|destruct rc; auto|exact E1].
    - destruct (e_val (at_key b k)) as [v|]; [|injection E as <-; exact Ha]. eapply put_wf_slot; [exact Ha|exact Wb|exact E]. }
  eapply foldM_inv; [|eapply foldM_inv; [|exact HJ|exact H1]|exact H2].
  - intros a k a' Ha _ E. apply (Hstep r (or_intror eq_refl) a k a' Ha E).
  - intros a k a' Ha _ E. apply (Hstep l (or_introl eq_refl) a k a' Ha E).
Qed.
Lemma with_wf t : forall b v cv, on wf b -> slot_wf v -> with_path_impl t b v = Ok cv -> wf (fst cv) /\ slot_wf (snd cv).
Proof.
  induction t as [|n rest IH]; intros b v cv Hw Hv H.
  - cbn [with_path_impl] in H. match type of H with (if ?c then _ else _) = _ => destruct c; [|discriminate] end.
    apply bind_ok in H as ([[acc v1] rp] & H1 & H2).
    assert (HI : wf acc /\ slot_wf v1).
    { refine (foldM_inv (fun st => wf (fst (fst st)) /\ slot_wf (snd (fst st))) _ _ _ _ _ _ H1); [|split; [apply empty_copy_wf|exact Hv]].
      intros [[a w] rp0] e a' [Ha Hw'] Hi E. cbn [fst snd] in *. pose proof (entry_wf _ _ Hw Hi) as He.
      destruct (e_val e) as [ev|]; [|injection E as <-; auto]. destruct (seqb (e_key e) []).
      - apply bind_ok in E as (x & E1 & [= <-]). cbn. split; [eapply put_wf_slot; [exact Ha| |exact E1]; exact Hw'|exact I].
      - apply bind_ok in E as (x & E1 & [= <-]). cbn. split; [eapply put_wf_slot; [exact Ha| |exact E1]; exact He|exact Hw']. }
    destruct rp; [injection H2 as <-; exact HI|]. apply bind_ok in H2 as (x & E1 & [= <-]). cbn. split; [|exact I].
    eapply put_wf_slot; [apply HI| |exact E1]. apply HI.
  - cbn [with_path_impl] in H. match type of H with (if ?c then _ else _) = _ => destruct c; [|discriminate] end.
    apply bind_ok in H as ([[acc v1] rp] & H1 & H2).
    assert (HI : wf acc /\ slot_wf v1).
    { refine (foldM_inv (fun st => wf (fst (fst st)) /\ slot_wf (snd (fst st))) _ _ _ _ _ _ H1); [|split; [apply empty_copy_wf|exact Hv]].
      intros [[a w] rp0] e a' [Ha Hw'] Hi E. cbn [fst snd] in *. pose proof (entry_wf _ _ Hw Hi) as He.
      destruct (e_val e) as [ev|] eqn:Eev; [|injection E as <-; auto]. destruct (seqb (e_key e) n).
      - destruct rest as [|r0 rest0].
        + apply bind_ok in E as (x & E1 & [= <-]). cbn. split; [eapply put_wf_slot; [exact Ha| |exact E1]; exact Hw'|exact I].
        + apply bind_ok in E as ([c2 v2] & E1 & E2). apply bind_ok in E2 as (x & E2 & [= <-]). cbn [fst snd] in *.
          destruct (IH (object_of (Some ev)) w _ (object_of_wf _ He) Hw' E1) as [W1 W2]. split; [|exact W2].
          eapply put_wf_slot; [exact Ha| |exact E2]. exact W1.
      - apply bind_ok in E as (x & E1 & [= <-]). cbn. split; [eapply put_wf_slot; [exact Ha| |exact E1]; exact He|exact Hw']. }
    destruct HI as [W V]. destruct rp; [injection H2 as <-; auto|]. destruct rest as [|r0 rest0].
    + apply bind_ok in H2 as (x & E1 & [= <-]). cbn. split; [|exact I]. eapply put_wf_slot; [exact W| |exact E1]. exact V.
    + apply bind_ok in H2 as ([c2 v2] & E1 & E2). apply bind_ok in E2 as (x & E2 & [= <-]). cbn [fst snd] in *.
      destruct (IH None v1 _ I V E1) as [W1 W2]. split; [|exact W2]. eapply put_wf_slot; [exact W| |exact E2]. exact W1.
Qed.
Lemma only_wf t : forall b b', on wf b -> only_path_impl t b = Ok b' -> on wf b'.
Proof.
  induction t as [|n rest IH]; intros b b' Hw H; (destruct b as [c|]; [|injection H as <-; exact I]); cbn [only_path_impl] in H;
    (destruct (is_assoc (ckind c)); [|discriminate]);
    match type of H with match ?F with _ => _ end = _ => destruct F as [e|] eqn:E; [|injection H as <-; exact I] end;
    apply find_some in E as [Hi _]; pose proof (entry_wf _ _ Hw Hi) as He.
  - apply bind_ok in H as (x & H & [= <-]). cbn [on]. eapply put_wf_slot; [apply empty_copy_wf|exact He|exact H].
  - destruct rest as [|r0 rest0].
    + apply bind_ok in H as (x & H & [= <-]). cbn [on]. eapply put_wf_slot; [apply empty_copy_wf|exact He|exact H].
    + apply bind_ok in H as (ch & H1 & H2). apply IH in H1; [|apply object_of_wf; exact He]. destruct ch as [ch|]; [|injection H2 as <-; exact I].
      apply bind_ok in H2 as (x & H2 & [= <-]). cbn [on]. eapply put_wf_slot; [apply empty_copy_wf| |exact H2]. exact H1.
Qed.
Lemma without_wf t : forall b b', on wf b -> without_path_impl t b = Ok b' -> on wf b'.
Proof.
  induction t as [|n rest IH]; intros b b' Hw H; (destruct b as [c|]; [|injection H as <-; exact I]); cbn [without_path_impl] in H;
    (destruct (is_assoc (ckind c)); [|discriminate]);
    apply bind_ok in H as (x & H & [= <-]); cbn [on]; (eapply foldM_inv; [|apply empty_copy_wf|exact H]); cbn beta;
    intros a e a' Ha Hi E; pose proof (entry_wf _ _ Hw Hi) as He; (destruct (e_val e) as [ev|] eqn:Eev; [|injection E as <-; exact Ha]).
  - destruct (seqb (e_key e) []); [injection E as <-; exact Ha|]. eapply put_wf_slot; [exact Ha| |exact E]. exact He.
  - destruct (seqb (e_key e) n); [|eapply put_wf_slot; [exact Ha| |exact E]; exact He].
    destruct rest as [|r0 rest0]; [injection E as <-; exact Ha|]. apply bind_ok in E as (ch & E1 & E2).
    apply IH in E1; [|apply object_of_wf; exact He]. eapply put_wf_slot; [exact Ha| |exact E2]. destruct ch; exact E1.
Qed.
Lemma filter_wf b names white b' : on wf b -> with_filter b names white = Ok b' -> on wf b'.
Proof.
  intros Hw H. destruct b as [c|]; [|injection H as <-; exact I]. unfold with_filter in H. destruct (is_assoc (ckind c)); [|discriminate].
  apply bind_ok in H as (x & H & [= <-]); cbn [on]. eapply foldM_inv; [|apply empty_copy_wf|exact H]. cbn beta.
  intros a e a' Ha Hi E. pose proof (entry_wf _ _ Hw Hi) as He. destruct (e_val e) as [ev|]; [|injection E as <-; exact Ha].
  destruct (eqb white _); [|injection E as <-; exact Ha]. eapply put_wf_slot; [exact Ha| |exact E]. exact He.
Qed.

(* the configs a program can obtain *)
Definition op_value (o : op) : option value := match o with OPut _ v | OAdd v => Some v | _ => None end.
Inductive made : option conf -> Prop :=
| made_null : made None
| made_build k ops b : (forall o c, In o ops -> op_value o = Some (VConf (Some c)) -> made (Some c)) -> build k ops = Ok b -> made b
| made_clone b b' : made b -> clone b = Ok b' -> made b'
| made_shallow b b' : made b -> shallow_copy b = Ok b' -> made b'
| made_with b p v c : made b -> (forall d, v = VConf (Some d) -> made (Some d)) -> with_value b p v = Ok c -> made (Some c)
| made_without b p b' : made b -> without_path b p = Ok b' -> made b'
| made_only b p b' : made b -> with_only_path b p = Ok b' -> made b'
| made_white b names b' : made b -> with_whitelist b names = Ok b' -> made b'
| made_black b names b' : made b -> with_blacklist b names = Ok b' -> made b'
| made_merge l r p m : made l -> made r -> merged_with l r p = Ok m -> made (Some m)
| made_object b p c : made b -> e_val (at_path b p) = Some (VConf (Some c)) -> made (Some c).
Lemma made_wf b : made b -> on wf b.
Proof.
  induction 1 as [|k ops b _ IH H|b b' _ IH H|b b' _ IH H|b p v c _ IH _ IHv H|b p b' _ IH H|b p b' _ IH H|b ns b' _ IH H|b ns b' _ IH H|l r p m _ IHl _ IHr H|b p c _ IH H].
  - exact I.
  - eapply build_wf; [|exact H]. apply Forall_forall. intros o Ho. specialize (IH o).
    destruct o as [k0 [| | | |[c|]]|k0|[| | | |[c|]]|]; cbn; auto; apply (IH c Ho eq_refl).
  - eapply copy_wf; eauto.
  - eapply copy_wf; eauto.
  - apply bind_ok in H as (cv & H & [= <-]). eapply with_wf; [exact IH| |exact H]. destruct v as [| | | |[d|]]; cbn; auto.
    apply IHv. reflexivity.
  - eapply without_wf; eauto.
  - eapply only_wf; eauto.
  - eapply filter_wf; eauto.
  - eapply filter_wf; eauto.
  - destruct p; eapply merge_wf; [exact IHl|exact IHr|exact H|exact IHr|exact IHl|exact H].
  - pose proof (resolve_wf (tokenize p) b IH) as HR. unfold at_path in H. rewrite H in HR. exact HR.
Qed.
