(* Proofs about views in a debug build. *)
From Coq Require Import List NArith ZArith Bool Lia Arith.
From Verif Require Import NdModel NdSpec NdProofs NdAccess NdSampler NdProps DviewModel DviewSpec.
Import ListNotations.
Local Open Scope N_scope.

(* ---- what debug adds is only stops ---- *)

Definition agrees {A} (d r : out A) : Prop := d = Stop \/ d = r.

Lemma agrees_refl {A} (x : out A) : agrees x x. Proof. now right. Qed.
Lemma agrees_requires {A} c (x y : out A) : agrees x y -> agrees (requires true c x) (requires false c y).
Proof. intros H. unfold requires. destruct c; cbn; [exact H|now left]. Qed.
Lemma agrees_then {A B} (x y : out A) (f g : A -> out B) : agrees x y -> (forall a, agrees (f a) (g a)) ->
  agrees (then_ x f) (then_ y g).
Proof. intros [->| ->] F; [now left|]. destruct y; cbn; auto using agrees_refl. Qed.

Lemma agrees_subscript sz o i : agrees (subscript true sz o i) (subscript false sz o i).
Proof. unfold subscript. destruct (p_descs _) as [|? [|? ?]]; auto using agrees_refl, agrees_requires. Qed.
Lemma agrees_element sz o i : agrees (element true sz o i) (element false sz o i).
Proof. unfold element. destruct (p_descs _) as [|? [|? ?]]; auto using agrees_refl, agrees_requires. Qed.
Lemma agrees_continuous w sz p is : forall dim off,
  agrees (get_continuous true w sz p dim off is) (get_continuous false w sz p dim off is).
Proof.
  induction is as [|i is IH]; intros dim off; [apply agrees_refl|].
  cbn [get_continuous]. destruct is; apply agrees_requires; auto using agrees_refl.
Qed.
Lemma agrees_strided w sz is : forall o dim,
  agrees (get_strided true w sz o dim is) (get_strided false w sz o dim is).
Proof.
  induction is as [|i is IH]; intros o dim; [apply agrees_refl|].
  cbn [get_strided]. apply agrees_requires. cbn zeta. destruct is; [apply agrees_element|].
  apply agrees_then; [apply agrees_subscript|]. intros a. apply IH.
Qed.
Lemma agrees_get w sz o is : agrees (get true w sz o is) (get false w sz o is).
Proof. unfold get. destruct (kind_of o), is as [|? [|? ?]]; auto using agrees_continuous, agrees_strided. Qed.
Lemma agrees_load w sz o is : agrees (load_by true w sz o is) (load_by false w sz o is).
Proof. unfold load_by. destruct (negb _); [|destruct (check_bounds (sampler_of w) (proxy_of o) 0 is), (s_boundary (sampler_of w))]; auto using agrees_refl, agrees_get. Qed.
Lemma agrees_at w sz o is : agrees (at_by true w sz o is) (at_by false w sz o is).
Proof. unfold at_by. destruct (negb _); [|destruct (check_bounds (sampler_of w) (proxy_of o) 0 is)]; auto using agrees_refl, agrees_get. Qed.
Lemma agrees_step sz o s : agrees (do_step true sz o s) (do_step false sz o s).
Proof.
  destruct s as [i| |e ext]; cbn [do_step]; [apply agrees_subscript|apply agrees_refl|].
  unfold reshaped. destruct o as [p|k p]; [|apply agrees_refl]. do 2 apply agrees_requires.
  apply agrees_then; [|intros; apply agrees_refl]. apply agrees_requires, agrees_refl.
Qed.
Lemma agrees_steps sz l : forall o, agrees (do_steps true sz o l) (do_steps false sz o l).
Proof.
  induction l as [|s l IH]; intros o; [apply agrees_refl|]. cbn [do_steps].
  apply agrees_then; [apply agrees_step|]. exact IH.
Qed.
Lemma agrees_use sz fuel o u : agrees (do_use true sz fuel o u) (do_use false sz fuel o u).
Proof.
  destruct u; cbn [do_use]; try apply agrees_then; try (intros; apply agrees_refl);
    auto using agrees_element, agrees_at, agrees_load.
  apply agrees_requires, agrees_refl.
Qed.
Lemma agrees_program sz fuel o l u : agrees (program true sz fuel o l u) (program false sz fuel o l u).
Proof. apply agrees_then; [apply agrees_steps|]. intros a. apply agrees_use. Qed.

(* ---- samplers ---- *)

Fixpoint in_rangeb (ext is : list N) : bool :=
  match ext, is with
  | [], [] => true
  | e :: ext', i :: is' => (i <? e) && in_rangeb ext' is'
  | _, _ => false
  end.
Lemma in_rangeb_spec ext : forall is, in_rangeb ext is = true <-> in_range ext is.
Proof.
  induction ext as [|e ext IH]; intros [|i is]; cbn; try (split; [discriminate|intros H; inversion H]).
  - split; [constructor|reflexivity].
  - rewrite andb_true_iff, N.ltb_lt, IH. split; [intros [? ?]; constructor; assumption|intros H; inversion H; subst; easy].
Qed.

Lemma brackets_spec sz is : forall o, length is = dims o -> is <> [] ->
  brackets true sz o is =
    (if in_rangeb (sizes (proxy_of o)) is then Go (nested (kind_of o) sz (proxy_of o) is) else Stop) /\
  brackets false sz o is = Go (nested (kind_of o) sz (proxy_of o) is).
Proof.
  induction is as [|i is IH]; intros o L Ne; [congruence|]. unfold dims, sizes in *.
  destruct is as [|j is].
  - cbn [brackets]. unfold element. destruct (p_descs (proxy_of o)) as [|d [|? ?]] eqn:E; try discriminate.
    unfold size. rewrite E. cbn. rewrite andb_true_r. unfold requires. now destruct (i <? d_size d).
  - remember (j :: is) as r eqn:Er. cbn [brackets].
    destruct (p_descs (proxy_of o)) as [|d [|d' ds]] eqn:E; try (subst r; discriminate).
    unfold subscript, size. rewrite E. cbn [nth map in_rangeb].
    set (o' := Row (kind_of o) (sub_view (kind_of o) sz (proxy_of o) i)).
    assert (Eo : p_descs (proxy_of o') = d' :: ds) by (cbn; unfold sub_view; now rewrite E).
    specialize (IH o'). rewrite Eo in IH. cbn in L. destruct IH as [IH1 IH2]; [cbn; lia|subst r; discriminate|].
    assert (Nn : nested (kind_of o) sz (proxy_of o) (i :: r) = nested (kind_of o') sz (proxy_of o') r) by (subst r; reflexivity).
    cbn [map] in IH1. rewrite Nn. split.
    + subst r. unfold requires. destruct (i <? d_size d); cbn [andb negb then_]; [|reflexivity].
      exact IH1.
    + subst r. cbn [requires andb then_]. exact IH2.
Qed.

Lemma get_strided_spec w sz is : forall o dim, length is = dims o -> is <> [] -> kind_of o = Strided ->
  let ns := sizes (proxy_of o) in
  get_strided true w sz o dim is =
    (if forallb (needs w) ns && in_rangeb ns (eff (sampler_of w) ns dim is)
     then Go (fetch_strided (sampler_of w) sz (proxy_of o) dim is) else Stop).
Proof.
  induction is as [|i is IH]; intros o dim L Ne K; [congruence|]. cbn zeta. unfold dims, sizes in *.
  destruct (p_descs (proxy_of o)) as [|d ds] eqn:E; [discriminate|].
  cbn [get_strided map forallb eff in_rangeb]. cbn zeta. set (j := s_transform _ _ _ (size _ _)).
  assert (Es : size (proxy_of o) 0 = d_size d) by (unfold size; now rewrite E).
  assert (Ej : s_transform (sampler_of w) dim (s_index (sampler_of w) i) (d_size d) = j) by (unfold j; now rewrite Es).
  rewrite Ej, Es. unfold requires at 1. destruct (needs w (d_size d)); cbn [andb negb]; [|reflexivity].
  destruct is as [|i' is].
  - destruct ds; [|discriminate]. unfold element. rewrite E, Es. unfold requires. cbn [map forallb eff in_rangeb].
    rewrite andb_true_r. destruct (j <? d_size d); cbn [andb negb]; [|reflexivity].
    cbn [fetch_strided]. now rewrite Es, Ej.
  - destruct ds as [|d' ds]; [discriminate|]. unfold subscript. rewrite E, Es. unfold requires at 1.
    destruct (j <? d_size d) eqn:Lt; cbn [andb negb then_]; [|now rewrite andb_false_r].
    set (o' := Row _ _).
    assert (Eo : p_descs (proxy_of o') = d' :: ds) by (cbn; unfold sub_view; now rewrite E).
    specialize (IH o' (S dim)). rewrite Eo in IH. rewrite IH; [|cbn in L |- *; lia|discriminate|exact K].
    unfold o' at 1. cbn [proxy_of]. rewrite K.
    destruct (_ && _); reflexivity.
Qed.

Lemma get_continuous_spec w sz p is : forall dim off ns, skipn dim (sizes p) = ns -> length is = length ns -> is <> [] ->
  get_continuous true w sz p dim off is =
    (if forallb (needs w) ns then Go (fetch_continuous (sampler_of w) sz p dim off is) else Stop).
Proof.
  induction is as [|i is IH]; intros dim off ns E L Ne; [congruence|].
  destruct ns as [|n ns]; [discriminate|].
  pose proof (size_nth _ _ _ _ E) as En. pose proof (skipn_next _ _ _ _ E) as E'.
  cbn [get_continuous forallb]. cbn zeta. rewrite En.
  destruct is as [|i' is].
  - destruct ns; [|discriminate]. cbn [forallb fetch_continuous]. rewrite En, andb_true_r. unfold requires.
    now destruct (needs w n).
  - unfold requires at 1. destruct (needs w n); cbn [andb negb]; [|reflexivity].
    rewrite (IH _ _ ns E'); [|cbn in L |- *; lia|discriminate].
    destruct (forallb _ _); [|reflexivity]. f_equal.
    change (fetch_continuous (sampler_of w) sz p dim off (i :: i' :: is)) with
      (fetch_continuous (sampler_of w) sz p (S dim)
        (mul64 (add64 off (s_transform (sampler_of w) dim (s_index (sampler_of w) i) (size p dim))) (size p (S dim))) (i' :: is)).
    now rewrite En.
Qed.

(* where a sampler leads *)
Lemma eff_default_range ns : forall dim is, length is = length ns -> chk sampler_default ns dim is = true ->
  in_range ns (eff sampler_default ns dim is).
Proof.
  induction ns as [|n ns IH]; intros dim [|i is] L C; try discriminate; [constructor|].
  cbn [chk eff] in *. apply andb_true_iff in C. destruct C as [C C']. cbn in L. constructor; [|apply IH; [lia|exact C']].
  cbn in *. apply Z.ltb_lt in C. unfold plain_transform, to_u64, as_size in *. rewrite Z.mod_mod by discriminate.
  assert (0 <= i mod 2 ^ 64)%Z by (apply Z.mod_pos_bound; reflexivity). lia.
Qed.
Lemma eff_zero_range ns : forall dim is, length is = length ns -> chk sampler_zero ns dim is = true ->
  in_range ns (eff sampler_zero ns dim is).
Proof.
  induction ns as [|n ns IH]; intros dim [|i is] L C; try discriminate; [constructor|].
  cbn [chk eff] in *. apply andb_true_iff in C. destruct C as [C C']. cbn in L. constructor; [|apply IH; [lia|exact C']].
  cbn [s_check sampler_zero] in C. apply andb_true_iff in C. destruct C as [_ C]. apply N.ltb_lt in C. exact C.
Qed.
Lemma eff_clamp_range ns : forall dim is, length is = length ns -> Forall (fun n => 0 < n < 2 ^ 64) ns ->
  in_range ns (eff sampler_clamp ns dim is).
Proof.
  induction ns as [|n ns IH]; intros dim [|i is] L P; try discriminate; [constructor|].
  inversion P as [|? ? Pn P']; subst. cbn in L. cbn [eff]. constructor; [|apply IH; [lia|exact P']].
  cbn [s_transform sampler_clamp]. replace (n + (2 ^ 64 - 1)) with ((n - 1) + 1 * 2 ^ 64) by lia.
  unfold w64. rewrite N.mod_add by discriminate. rewrite N.mod_small by lia. lia.
Qed.
Lemma needs_true w ns : w <> Clamp -> forallb (needs w) ns = true.
Proof. intros H. apply forallb_forall. intros x _. destruct w; [reflexivity..|congruence]. Qed.
Lemma needs_clamp ns : forallb (needs Clamp) ns = true <-> Forall (fun n => 0 < n) ns.
Proof.
  rewrite forallb_forall, Forall_forall. split; intros H x I; specialize (H x I); cbn in *.
  - destruct (N.eqb_spec x 0); [discriminate|lia].
  - destruct (N.eqb_spec x 0); [lia|reflexivity].
Qed.

(* the object is a vector or a view *)
Definition proper (o : object) : Prop := kind_of o = Plain -> exists ptr ext, proxy_of o = vector_proxy ptr ext.

(* what a sampler that has accepted the indices does in the end *)
Lemma get_spec w sz o is : length is = dims o -> is <> [] -> proper o ->
  let ns := sizes (proxy_of o) in
  get true w sz o is =
    (if forallb (needs w) ns &&
        match kind_of o, is with Plain, _ | Strided, [_] => true | Strided, _ => in_rangeb ns (eff (sampler_of w) ns 0 is) end
     then Go (nested (kind_of o) sz (proxy_of o) (eff (sampler_of w) ns 0 is)) else Stop).
Proof.
  intros L Ne Pr. cbn zeta. unfold dims in L.
  assert (L' : length is = length (sizes (proxy_of o))) by (rewrite sizes_length; exact L).
  pose proof (fetch_any (kind_of o) (sampler_of w) sz (proxy_of o) is L Ne Pr) as F.
  unfold get, fetch in *. destruct (kind_of o) eqn:K.
  - rewrite <- F, andb_true_r. now apply get_continuous_spec.
  - destruct is as [|i [|j is]]; [congruence| |].
    + rewrite <- F, andb_true_r. now apply get_continuous_spec.
    + rewrite <- F. now apply get_strided_spec.
Qed.
