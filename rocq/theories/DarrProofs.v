(* Proofs about the debug build of array_nd. *)
From Coq Require Import List Bool NArith ZArith Lia Arith.
From Verif Require Import NdModel NdSpec NdProofs NdAccess ArrModel ArrSpec ArrProofs ArrRun DarrModel DarrSpec.
Import ListNotations.
Local Open Scope N_scope.

Lemma d_nested_spec sz ext : forall ptr is, length is = length ext -> ext <> [] ->
  d_nested sz ptr ext is = if insideb ext is then Here (array_nested sz ptr ext is) else Stops.
Proof.
  induction ext as [|e ext IH]; intros ptr is L E; [congruence|].
  destruct is as [|i is]; [discriminate|]. cbn in L.
  destruct ext as [|x ext]; destruct is as [|j is]; try discriminate.
  - cbn. now rewrite andb_true_r.
  - change (d_nested sz ptr (e :: x :: ext) (i :: j :: is)) with
      (if i <? e then d_nested sz (add64 ptr (mul64 (mul64 i (shape_total (x :: ext))) sz)) (x :: ext) (j :: is) else Stops).
    change (insideb (e :: x :: ext) (i :: j :: is)) with ((i <? e) && insideb (x :: ext) (j :: is)).
    destruct (i <? e); [|reflexivity]. cbn [andb]. rewrite IH; [reflexivity|lia|discriminate].
Qed.
Lemma d_at_spec sz ext : forall ptr is, length is = length ext -> ext <> [] ->
  d_at sz ptr ext is = if insideb ext is then Here (array_nested sz ptr ext is) else Throws.
Proof.
  induction ext as [|e ext IH]; intros ptr is L E; [congruence|].
  destruct is as [|i is]; [discriminate|]. cbn in L.
  destruct ext as [|x ext]; destruct is as [|j is]; try discriminate.
  - cbn. rewrite andb_true_r. destruct (i <? e); reflexivity.
  - change (d_at sz ptr (e :: x :: ext) (i :: j :: is)) with
      (if i <? e then match d_nested sz ptr [e] [i] with
        | Stops => Stops
        | _ => d_at sz (add64 ptr (mul64 (mul64 i (shape_total (x :: ext))) sz)) (x :: ext) (j :: is)
        end else Throws).
    change (insideb (e :: x :: ext) (i :: j :: is)) with ((i <? e) && insideb (x :: ext) (j :: is)).
    cbn [d_nested]. destruct (i <? e); [|reflexivity]. cbn [andb]. rewrite IH; [reflexivity|lia|discriminate].
Qed.

Section Run.
Context {V : Type}.
Variables (sz : N) (arrs : list arr).
Hypothesis L : laid_out sz arrs.

Lemma in_or_not ext is : in_range ext is \/ ~ in_range ext is.
Proof. destruct (insideb ext is) eqn:I; [left; now apply insideb_spec|right; rewrite <- insideb_spec; congruence]. Qed.

Lemma d_locate_spec p a is : names_some (shapes arrs) p a is ->
  d_locate sz p (the arrs a) is =
    match judge (shapes arrs) p a is with
    | Allowed => Here (cell sz (the arrs a) (row_major (shape (the arrs a)) is))
    | Refused => Throws
    | Fatal => Stops
    end.
Proof using L.
  intros (Ha & Le & R). rewrite shapes_length in Ha. rewrite shape_of_the in *. unfold judge. rewrite shape_of_the.
  pose proof (the_placed _ _ _ L Ha) as P. assert (Hz : 0 < sz) by apply L.
  assert (X : in_range (shape (the arrs a)) is -> array_nested sz (base (the arrs a)) (shape (the arrs a)) is =
    cell sz (the arrs a) (row_major (shape (the arrs a)) is)).
  { intros I. pose proof (locate_spec sz Brackets (the arrs a) is Hz P Le (fun _ => I)) as Y. cbn [locate] in Y.
    rewrite (proj2 (insideb_spec _ _) I) in Y. now injection Y. }
  destruct p; cbn [d_locate].
  - rewrite d_nested_spec by (apply P || exact Le). destruct (insideb (shape (the arrs a)) is) eqn:I; [|reflexivity].
    apply insideb_spec in I. now rewrite X.
  - rewrite d_at_spec by (apply P || exact Le). destruct (insideb (shape (the arrs a)) is) eqn:I; [|reflexivity].
    apply insideb_spec in I. now rewrite X.
  - rewrite (locate_spec sz Iterators (the arrs a) is Hz P Le) by auto. rewrite (proj2 (insideb_spec _ _)) by auto. reflexivity.
  - rewrite (locate_spec sz View (the arrs a) is Hz P Le) by auto. rewrite (proj2 (insideb_spec _ _)) by auto. reflexivity.
Qed.
Lemma d_fetch_spec t (m : mem V) s : names_some_source (shapes arrs) s -> holds sz arrs t m ->
  match judge_source (shapes arrs) s with
  | Allowed => exists v, d_fetch sz arrs m s = Got v /\ value_of (shapes arrs) t s = Some v
  | Refused => d_fetch sz arrs m s = NoThrows
  | Fatal => d_fetch sz arrs m s = NoStops
  end.
Proof using L.
  destruct s as [v|p a is]; intros Ns H; [cbn; eauto|]. cbn [names_some_source judge_source d_fetch value_of] in *.
  rewrite (d_locate_spec p a is Ns). unfold judge. destruct (insideb (shape_of (shapes arrs) a) is) eqn:I.
  - eexists. split; [reflexivity|]. f_equal. apply insideb_spec in I. rewrite shape_of_the in I. symmetry. apply H; [|exact I].
    destruct Ns as (Ha & _). now rewrite shapes_length in Ha.
  - destruct p; reflexivity.
Qed.

Lemma d_exec_spec sf t (m : mem V) o : compiles (shapes arrs) o -> holds sz arrs t m ->
  match judge_op sf (shapes arrs) o with
  | Fatal => d_exec sf sz arrs o m = Ended
  | Refused => d_exec sf sz arrs o m = Caught
  | Allowed => exists t' m', meaning (shapes arrs) o t = Some t' /\ d_exec sf sz arrs o m = Fine m' /\ exec sz arrs o m = Done m' /\
      holds sz arrs t' m' /\ (forall x, elsewhere sz arrs x -> m' x = m x)
  end.
Proof using L.
  intros C H.
  assert (OP : forall t', legal (shapes arrs) o -> meaning (shapes arrs) o t = Some t' ->
     exists m', exec sz arrs o m = Done m' /\ holds sz arrs t' m' /\ (forall x, elsewhere sz arrs x -> m' x = m x)).
  { intros t' Lo M. pose proof (exec_holds sz arrs L t m o Lo H) as X. now rewrite M in X. }
  destruct o as [p a is s|a k s|a v|a b|a b]; cbn [compiles judge_op] in *.
  - destruct C as [Cd Cs]. pose proof (d_fetch_spec t m s Cs H) as F. pose proof (d_locate_spec p a is Cd) as D. cbn [d_exec]. rewrite D.
    destruct (judge_source (shapes arrs) s) eqn:JS; destruct (judge (shapes arrs) p a is) eqn:JD;
      try destruct F as (v & F & W); rewrite ?F; destruct sf; cbn [earlier]; try reflexivity.
    all: assert (IN : insideb (shape_of (shapes arrs) a) is = true) by
        (unfold judge in JD; destruct (insideb (shape_of (shapes arrs) a) is); [reflexivity|destruct p; discriminate]).
    all: assert (LG : legal (shapes arrs) (Store p a is s)).
    1, 3: split; [destruct Cd as (? & ? & ?); split; [assumption|split; [assumption|intros _; now apply insideb_spec]]|];
        destruct s as [u|q b js]; [exact I|]; cbn in JS, Cs |- *; destruct Cs as (? & ? & ?); split; [assumption|split; [assumption|intros _]];
        apply insideb_spec; unfold judge in JS; destruct (insideb (shape_of (shapes arrs) b) js); [reflexivity|destruct q; discriminate].
    all: destruct (OP (set t a is v) LG) as (m' & E & H' & O'); [cbn [meaning]; rewrite IN, W; reflexivity|].
    all: exists (set t a is v), m'; split; [cbn [meaning]; rewrite IN, W; reflexivity|].
    all: cbn [exec] in E; destruct LG as (NE & NS); rewrite (fetch_holds sz arrs L t m s NS H), W, (locate_holds sz arrs L t m p a is NE H), IN in E.
    all: cbn [exec]; rewrite (fetch_holds sz arrs L t m s NS H), W, (locate_holds sz arrs L t m p a is NE H), IN.
    all: injection E as <-; auto.
  - destruct C as (Ca & Ck & Cs). pose proof (d_fetch_spec t m s Cs H) as F. cbn [d_exec].
    destruct (judge_source (shapes arrs) s) eqn:JS; try (now rewrite F).
    destruct F as (v & F & W). rewrite F.
    assert (NS : names_source (shapes arrs) s).
    { destruct s as [u|q b js]; [exact I|]; cbn in JS, Cs |- *; destruct Cs as (? & ? & ?); split; [assumption|split; [assumption|intros _]];
        apply insideb_spec; unfold judge in JS; destruct (insideb (shape_of (shapes arrs) b) js); [reflexivity|destruct q; discriminate]. }
    destruct (OP (set_nth (shape_of (shapes arrs) a) t a k v)) as (m' & E & H' & O'); [split; auto|cbn [meaning]; rewrite W; reflexivity|].
    exists (set_nth (shape_of (shapes arrs) a) t a k v), m'. split; [cbn [meaning]; rewrite W; reflexivity|].
    cbn [exec] in E |- *. rewrite (fetch_holds sz arrs L t m s NS H), W in E |- *. injection E as <-. auto.
  - destruct (OP (set_all t a v) C eq_refl) as (m' & E & H' & O'). exists (set_all t a v), m'. cbn [d_exec]. rewrite E. auto.
  - destruct (OP (exchange t a b) C eq_refl) as (m' & E & H' & O'). exists (exchange t a b), m'. cbn [d_exec]. rewrite E. auto.
  - destruct (OP (copy t a b) C eq_refl) as (m' & E & H' & O'). exists (copy t a b), m'. cbn [d_exec]. rewrite E. auto.
Qed.

Lemma d_run_spec sf os : forall t (m : mem V), Forall (compiles (shapes arrs)) os -> holds sz arrs t m ->
  let r := judged sf (shapes arrs) os t in
  exists m', d_run sf sz arrs os m = Some (fst (fst r), snd (fst r), m') /\
    holds sz arrs (snd r) m' /\ (forall x, elsewhere sz arrs x -> m' x = m x).
Proof using L.
  induction os as [|o os IH]; intros t m F H; cbn [d_run judged]; [exists m; auto|].
  inversion F as [|? ? Fo F']; subst. pose proof (d_exec_spec sf t m o Fo H) as X.
  destruct (judge_op sf (shapes arrs) o).
  - destruct X as (t' & m1 & M & E & _ & H1 & O1). rewrite E, M. destruct (IH t' m1 F' H1) as (m2 & E2 & H2 & O2). cbn zeta in E2. rewrite E2.
    exists m2. cbn. split; [reflexivity|]. split; [exact H2|]. intros x O. now rewrite O2, O1.
  - rewrite X. destruct (IH t m F' H) as (m2 & E2 & H2 & O2). cbn zeta in E2. rewrite E2. exists m2. cbn. auto.
  - rewrite X. exists m. cbn. auto.
Qed.

Lemma d_locate_release p a is : names_some (shapes arrs) p a is ->
  match d_locate sz p (the arrs a) is with
  | Here x => locate sz p (the arrs a) is = Some x
  | Throws => locate sz p (the arrs a) is = None
  | Stops => True
  end.
Proof using L.
  intros (Ha & Le & _). rewrite shapes_length in Ha. rewrite shape_of_the in Le.
  pose proof (the_placed _ _ _ L Ha) as P. destruct p; cbn [d_locate locate].
  - rewrite d_nested_spec by (apply P || exact Le). now destruct insideb.
  - rewrite d_at_spec by (apply P || exact Le). rewrite at_spec by (apply P || exact Le). now destruct insideb.
  - reflexivity.
  - reflexivity.
Qed.
Lemma d_fetch_release (m : mem V) s : names_some_source (shapes arrs) s ->
  match d_fetch sz arrs m s with
  | Got v => fetch sz arrs m s = Some v
  | NoThrows => fetch sz arrs m s = None
  | NoStops => True
  end.
Proof using L.
  destruct s as [v|p a is]; intros C; [reflexivity|]. cbn [d_fetch fetch names_some_source] in *.
  pose proof (d_locate_release p a is C) as X. destruct (d_locate sz p (the arrs a) is); rewrite ?X; auto.
Qed.
Lemma d_exec_release sf (m : mem V) o : compiles (shapes arrs) o ->
  d_exec sf sz arrs o m = Ended \/ d_exec sf sz arrs o m = of_release (exec sz arrs o m).
Proof using L.
  destruct o as [p a is s|a k s|a v|a b|a b]; cbn [compiles d_exec exec]; intros C; try (right; reflexivity).
  - destruct C as [Cd Cs]. pose proof (d_locate_release p a is Cd) as X. pose proof (d_fetch_release m s Cs) as Y.
    destruct (d_fetch sz arrs m s), (d_locate sz p (the arrs a) is); rewrite ?X, ?Y; auto;
      destruct sf; auto; right; destruct (fetch sz arrs m s); reflexivity.
  - destruct C as (_ & _ & Cs). pose proof (d_fetch_release m s Cs) as Y. destruct (d_fetch sz arrs m s); rewrite ?Y; auto.
Qed.
Lemma d_run_release sf os : forall (m : mem V) ths m', Forall (compiles (shapes arrs)) os ->
  d_run sf sz arrs os m = Some (ths, false, m') -> run sz arrs os m = Some (ths, m').
Proof using L.
  induction os as [|o os IH]; intros m ths m' F; cbn [d_run run]; [intros [= <- <-]; reflexivity|].
  inversion F as [|? ? Fo F']; subst. destruct (d_exec_release sf m o Fo) as [-> | ->]; [discriminate|].
  destruct (exec sz arrs o m) as [m1| |]; cbn [of_release]; [| |discriminate].
  - destruct (d_run sf sz arrs os m1) as [[[a b] c]|] eqn:D; cbn; [|discriminate]. intros [= <- -> <-]. now rewrite (IH m1 a c F' D).
  - destruct (d_run sf sz arrs os m) as [[[a b] c]|] eqn:D; cbn; [|discriminate]. intros [= <- -> <-]. now rewrite (IH m a c F' D).
Qed.
End Run.

(* a program that stays inside, but for at, is not ended *)
Lemma names_judge shapes p a is : names_element shapes p a is ->
  judge shapes p a is = if insideb (shape_of shapes a) is then Allowed else Refused.
Proof.
  intros (_ & _ & R). unfold judge. destruct (insideb (shape_of shapes a) is) eqn:I; [reflexivity|].
  destruct p; try reflexivity; exfalso; rewrite (proj2 (insideb_spec _ _)) in I; try discriminate; apply R; discriminate.
Qed.
Lemma names_judge_source {V} shapes t (s : src V) : names_source shapes s ->
  judge_source shapes s = match value_of shapes t s with Some _ => Allowed | None => Refused end.
Proof.
  destruct s as [v|p a is]; cbn; [reflexivity|]. intros H. rewrite (names_judge _ _ _ _ H). now destruct insideb.
Qed.
Lemma legal_judged {V} sf shapes os : forall t : tables V, Forall (legal shapes) os ->
  judged sf shapes os t = (fst (meanings shapes os t), false, snd (meanings shapes os t)).
Proof.
  induction os as [|o os IH]; intros t F; cbn [judged meanings]; [reflexivity|].
  inversion F as [|? ? Fo F']; subst.
  assert (J : judge_op sf shapes o = match meaning shapes o t with Some _ => Allowed | None => Refused end).
  { destruct o as [p a is s|a k s|a v|a b|a b]; cbn [legal judge_op meaning] in *; try reflexivity.
    - destruct Fo as [Fd Fs]. rewrite (names_judge _ _ _ _ Fd), (names_judge_source _ t _ Fs).
      destruct (insideb (shape_of shapes a) is), (value_of shapes t s), sf; reflexivity.
    - destruct Fo as (_ & _ & Fs). rewrite (names_judge_source _ t _ Fs). destruct (value_of shapes t s); reflexivity. }
  rewrite J. destruct (meaning shapes o t) as [t'|]; rewrite IH by assumption; reflexivity.
Qed.

Lemma all_strides_nth sz sh k : (k < length sh)%nat ->
  nth_error (all_strides sz sh) k = Some (mul64 (shape_total (skipn k sh)) sz).
Proof.
  revert k. induction sh as [|e sh IH]; intros k K; [cbn in K; lia|].
  destruct k as [|k]; [reflexivity|]. cbn [length] in K. cbn [all_strides nth_error skipn]. apply IH. lia.
Qed.
