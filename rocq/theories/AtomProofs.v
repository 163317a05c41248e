From Coq Require Import List Bool Arith Lia.
From Verif Require Import AtomModel AtomSpec.
Import ListNotations.

Lemma nth_upd {A} i j (x : A) l : nth_error (upd i x l) j = if i =? j then match nth_error l i with Some _ => Some x | None => None end else nth_error l j.
Proof.
  revert i j. induction l as [|y l IH]; intros i j; [destruct i, j; cbn; try reflexivity; destruct (i =? j); reflexivity|].
  destruct i, j; cbn; try reflexivity. apply IH.
Qed.
Lemma upd_map {A B} (f : A -> B) k x l : upd k (f x) (map f l) = map f (upd k x l).
Proof. revert k. induction l as [|y l IH]; intros [|k]; cbn; try reflexivity. now rewrite IH. Qed.
Lemma upd_split {A} k (x y : A) l : nth_error l k = Some y -> upd k x l = firstn k l ++ x :: skipn (S k) l.
Proof. revert k. induction l as [|z l IH]; intros [|k] H; try discriminate; [reflexivity|]. cbn in *. rewrite IH by exact H. reflexivity. Qed.
Lemma upd_fst k t w v (l : list (nat * nat)) : nth_error l k = Some (t, v) -> map fst (upd k (t, w) l) = map fst l.
Proof. revert k. induction l as [|[a b] l IH]; intros [|k] H; try discriminate; cbn in *; [injection H as -> ->; reflexivity|now rewrite IH]. Qed.

Definition attrs_of (types : list nat) : list attr := map (fun p => Attr (snd p) (Some (fst p))) (combine (seq 0 (length types)) types).
Lemma registered_attrs regs : attrs (registered regs) = attrs_of (map fst regs).
Proof.
  unfold registered, attrs_of. cbn [attrs]. rewrite map_length. generalize 0. induction regs as [|[t v] r IH]; intros n; [reflexivity|].
  cbn. f_equal. apply IH.
Qed.
Lemma nth_indexed {B} (f : nat * nat -> B) types k : forall n,
  nth_error (map f (combine (seq n (length types)) types)) k = match nth_error types k with Some t => Some (f (n + k, t)) | None => None end.
Proof.
  revert k. induction types as [|t r IH]; intros k n; [destruct k; reflexivity|]. destruct k as [|k]; cbn; [now rewrite Nat.add_0_r|].
  rewrite IH. destruct (nth_error r k); [|reflexivity]. now rewrite <- plus_n_Sm.
Qed.
Lemma nth_attrs types k : nth_error (attrs_of types) k = match nth_error types k with Some t => Some (Attr t (Some k)) | None => None end.
Proof. unfold attrs_of. rewrite nth_indexed. destruct (nth_error types k); reflexivity. Qed.
Lemma nth_copy types k : nth_error (opers types CCopy) k = match nth_error types k with Some t => Some (OGet k t) | None => None end.
Proof. cbn [opers]. rewrite nth_indexed. destruct (nth_error types k); reflexivity. Qed.
Lemma copy_length types : length (opers types CCopy) = length types.
Proof. cbn [opers]. rewrite map_length, combine_length, seq_length. lia. Qed.

Definition is_get (c : call) : bool := match c with CGet _ _ | CGetOr _ _ _ | CGetOpt _ _ => true | _ => false end.
Definition is_set (c : call) : bool := match c with CSet _ _ => true | _ => false end.
(* the type asked for is that of the attribute *)
Definition fits (t : nat) (c : call) : Prop := match c with CGet _ u | CGetOr _ u _ | CGetOpt _ u => u = t | _ => True end.
Definition sound_pc (types : list nat) (p : pc) (w : within) : Prop :=
  match p with
  | Idle => w = None
  | Done r => exists c rs, w = Some (c, rs) /\ length rs = length (opers types c) /\ answer types c rs = Some r
  | At g CCopy k acc =>
      w = Some (CCopy, map Gave (map snd acc)) /\ map fst acc = firstn k types /\ k <= length types /\
      match g with
      | SFind => True
      | SCast | SPtr => k < length types
      | SRef h => h = k /\ k < length types
      | _ => False
      end
  | At g c k acc =>
      no_clear c = true /\ w = Some (c, []) /\ k = key_of c /\ acc = [] /\
      match g with
      | SFind => True
      | SType => is_get c = true /\ k < length types
      | SCast | SPtr => is_get c || is_set c = true /\ (exists t, nth_error types k = Some t /\ fits t c)
      | SRef h => h = k /\ is_get c || is_set c = true /\ (exists t, nth_error types k = Some t /\ fits t c)
      | SDelete _ => False
      end
  end.
Record inv (types : list nat) (v : list (nat * nat)) (s : state) (w : nat -> within) : Prop := {
  i_mem : mem s = Shared (attrs_of types) (map Some v);
  i_types : map fst v = types;
  i_threads : forall i td p, nth_error (threads s) i = Some (Thread td p) -> forallb no_clear td = true /\ sound_pc types p (w i)
}.
Definition set_w (w : nat -> within) (i : nat) (x : within) : nat -> within := fun j => if i =? j then x else w j.
Definition of_thread (i : nat) (m : moment) : Prop := (match m with Seen (Call j _) | Seen (Return j _) | Now j _ _ => j end) = i.

Lemma follows_others types i j w ms h : i <> j -> Forall (of_thread i) ms -> follows types j w h -> follows types j w (ms ++ h).
Proof. intros N F H. induction F as [|m ms E F IH]; [exact H|]. cbn. apply F_other; [unfold of_thread in E; congruence|exact IH]. Qed.
Lemma inv_set types v v' s m w i td p x : inv types v s w -> m = Shared (attrs_of types) (map Some v') -> map fst v' = types ->
  (exists th, nth_error (threads s) i = Some th) -> forallb no_clear td = true -> sound_pc types p x ->
  inv types v' (State m (upd i (Thread td p) (threads s))) (set_w w i x).
Proof.
  intros I M T (th & N) C S. constructor; [exact M|exact T|]. cbn [threads]. intros j td' p'. rewrite nth_upd, N. unfold set_w.
  destruct (i =? j); [intros [= <- <-]; auto|]. apply (i_threads _ _ _ _ I).
Qed.

(* a step inside a call *)
Lemma firstn_snoc {A} k (l : list A) t : nth_error l k = Some t -> firstn (S k) l = firstn k l ++ [t].
Proof. revert k. induction l as [|x l IH]; intros [|k] H; try discriminate; cbn in *; [congruence|]. now rewrite IH. Qed.
Lemma combine_split {A B} (l : list (A * B)) : combine (map fst l) (map snd l) = l.
Proof. induction l as [|[a b] l IH]; cbn; congruence. Qed.
Lemma inside_sim types v g c k acc w i :
  map fst v = types -> sound_pc types (At g c k acc) w ->
  exists m p' ms v' w', inside (Shared (attrs_of types) (map Some v)) g c k acc = Ok (m, p') /\
    m = Shared (attrs_of types) (map Some v') /\ map fst v' = types /\ sound_pc types p' w' /\
    observed ms = [] /\ Forall (of_thread i) ms /\
    (forall h, follows types i w' h -> follows types i w (ms ++ h)) /\
    (forall h, performed v' h -> performed v (ms ++ h)).
Proof.
  intros T S. unfold inside. cbn [attrs heap]. rewrite nth_attrs.
  assert (V : forall j, nth_error types j = match nth_error v j with Some x => Some (fst x) | None => None end).
  { intros j. rewrite <- T, nth_error_map. destruct (nth_error v j); reflexivity. }
  assert (TY : forall j u x, nth_error v j = Some (u, x) -> type_of (Shared (attrs_of types) (map Some v)) (Some j) = Ok (Some u)).
  { intros j u x E. cbn [type_of heap]. rewrite nth_error_map, E. reflexivity. }
  assert (QUIET : forall p', sound_pc types p' w -> exists m p'' ms v' w',
    Ok (Shared (attrs_of types) (map Some v), p') = Ok (m, p'') /\ m = Shared (attrs_of types) (map Some v') /\ map fst v' = types /\ sound_pc types p'' w' /\
    observed ms = [] /\ Forall (of_thread i) ms /\
    (forall h, follows types i w' h -> follows types i w (ms ++ h)) /\ (forall h, performed v' h -> performed v (ms ++ h))).
  { intros p' Q. exists (Shared (attrs_of types) (map Some v)), p', [], v, w. repeat split; auto. }
  assert (READ : forall r o p', w = Some (c, []) -> opers types c = [o] -> fst (perform o v) = r -> snd (perform o v) = v -> sound_pc types p' (Some (c, [r])) ->
    exists m p'' ms v' w',
    Ok (Shared (attrs_of types) (map Some v), p') = Ok (m, p'') /\ m = Shared (attrs_of types) (map Some v') /\ map fst v' = types /\ sound_pc types p'' w' /\
    observed ms = [] /\ Forall (of_thread i) ms /\
    (forall h, follows types i w' h -> follows types i w (ms ++ h)) /\ (forall h, performed v' h -> performed v (ms ++ h))).
  { intros r o p' -> O P1 P2 Q. exists (Shared (attrs_of types) (map Some v)), p', [Now i o r], v, (Some (c, [r])).
    split; [reflexivity|]. split; [reflexivity|]. split; [exact T|]. split; [exact Q|]. split; [reflexivity|]. split; [repeat constructor|].
    split; [intros h F; apply (F_now _ _ c [] o r); [rewrite O; reflexivity|exact F]|]. intros h F. cbn [performed app]. rewrite P2. auto. }
  destruct (nth_error types k) as [t|] eqn:K.
  - (* the attribute exists *)
    pose proof K as K'. rewrite V in K'. destruct (nth_error v k) as [[t' x]|] eqn:Vk; [|discriminate]. injection K' as <-. rename t' into t. cbn [fst] in *.
    cbn [a_content a_type].
    pose proof (TY k t x Vk) as TYk.
    assert (KL : k < length types) by (apply nth_error_Some; congruence).
    destruct c as [k0 y|k0 u|k0 u d|k0 u|k0|k0|]; cbn [sound_pc] in S.
    + (* set *)
      destruct S as (_ & -> & E & -> & G). cbn [key_of] in E. subst k0.
      destruct g as [| | | |h|h]; cbn [asked a_type] in *.
      * apply QUIET. cbn. repeat split; auto. eexists. split; [exact K|exact I].
      * destruct G as [G _]; discriminate.
      * rewrite TYk. cbn [is_type]. rewrite Nat.eqb_refl. apply QUIET. cbn. repeat split; auto. apply G.
      * apply QUIET. cbn. repeat split; auto. apply G.
      * destruct G as [-> _]. rewrite nth_error_map, Vk. cbn [option_map].
        destruct y as [[u y]|].
        -- destruct (u =? t) eqn:EU.
           ++ apply Nat.eqb_eq in EU as ->. exists (Shared (attrs_of types) (map Some (upd k (t, y) v))), (Done (RBool true)), [Now i (OSet k (Some (t, y))) (Gave y)], (upd k (t, y) v), (Some (CSet k (Some (t, y)), [Gave y])).
              rewrite <- upd_map. split; [reflexivity|]. split; [reflexivity|]. split; [rewrite (upd_fst _ _ _ x) by exact Vk; exact T|].
              split; [do 2 eexists; split; [reflexivity|split; reflexivity]|]. split; [reflexivity|]. split; [repeat constructor|].
              split; [intros h F; apply (F_now _ _ _ [] (OSet k (Some (t, y)))); [reflexivity|exact F]|]. intros h F. cbn [app performed perform]. rewrite Vk, Nat.eqb_refl.
              cbn [fst snd]. split; [reflexivity|]. rewrite <- (upd_split k (t, y) (t, x)) by exact Vk. exact F.
           ++ apply (READ Mismatch (OSet k (Some (u, y)))); try reflexivity; cbn [perform]; rewrite ?Vk, ?EU; try reflexivity. do 2 eexists. split; [reflexivity|split; reflexivity].
        -- apply (READ Mismatch (OSet k None)); try reflexivity; cbn [perform]; rewrite ?Vk; try reflexivity. do 2 eexists. split; [reflexivity|split; reflexivity].
      * destruct G.
    + (* get *)
      destruct S as (_ & -> & E & -> & G). cbn [key_of] in E. subst k0.
      destruct g as [| | | |h|h]; cbn [asked a_type] in *.
      * apply QUIET. cbn. repeat split; auto.
      * rewrite TYk. cbn [is_type]. destruct (t =? u) eqn:EU.
        -- apply QUIET. apply Nat.eqb_eq in EU as ->. cbn. repeat split; auto. eexists; split; [exact K|reflexivity].
        -- apply (READ Mismatch (OGet k u)); try reflexivity; cbn [perform]; rewrite ?Vk, ?EU; try reflexivity. do 2 eexists. split; [reflexivity|split; reflexivity].
      * destruct G as [_ (t' & E & Ft)]. cbn in Ft. rewrite K in E. injection E as <-. subst u. rewrite TYk. cbn [is_type]. rewrite Nat.eqb_refl. apply QUIET. cbn. repeat split; auto. eexists; split; [exact K|reflexivity].
      * apply QUIET. cbn. repeat split; auto. apply G.
      * destruct G as (-> & _ & t' & E & Ft). cbn in Ft. rewrite K in E. injection E as <-. subst u. rewrite nth_error_map, Vk. cbn [option_map gave].
        apply (READ (Gave x) (OGet k t)); try reflexivity; cbn [perform]; rewrite ?Vk, ?Nat.eqb_refl; try reflexivity. do 2 eexists. split; [reflexivity|split; reflexivity].
      * destruct G.
    + destruct S as (_ & -> & E & -> & G). cbn [key_of] in E. subst k0.
      destruct g as [| | | |h|h]; cbn [asked a_type] in *.
      * apply QUIET. cbn. repeat split; auto.
      * rewrite TYk. cbn [is_type]. destruct (t =? u) eqn:EU.
        -- apply QUIET. apply Nat.eqb_eq in EU as ->. cbn. repeat split; auto. eexists; split; [exact K|reflexivity].
        -- apply (READ Mismatch (OGet k u)); try reflexivity; cbn [perform]; rewrite ?Vk, ?EU; try reflexivity. do 2 eexists. split; [reflexivity|split; reflexivity].
      * destruct G as [_ (t' & E & Ft)]. cbn in Ft. rewrite K in E. injection E as <-. subst u. rewrite TYk. cbn [is_type]. rewrite Nat.eqb_refl. apply QUIET. cbn. repeat split; auto. eexists; split; [exact K|reflexivity].
      * apply QUIET. cbn. repeat split; auto. apply G.
      * destruct G as (-> & _ & t' & E & Ft). cbn in Ft. rewrite K in E. injection E as <-. subst u. rewrite nth_error_map, Vk. cbn [option_map gave].
        apply (READ (Gave x) (OGet k t)); try reflexivity; cbn [perform]; rewrite ?Vk, ?Nat.eqb_refl; try reflexivity. do 2 eexists. split; [reflexivity|split; reflexivity].
      * destruct G.
    + destruct S as (_ & -> & E & -> & G). cbn [key_of] in E. subst k0.
      destruct g as [| | | |h|h]; cbn [asked a_type] in *.
      * apply QUIET. cbn. repeat split; auto.
      * rewrite TYk. cbn [is_type]. destruct (t =? u) eqn:EU.
        -- apply QUIET. apply Nat.eqb_eq in EU as ->. cbn. repeat split; auto. eexists; split; [exact K|reflexivity].
        -- apply (READ Mismatch (OGet k u)); try reflexivity; cbn [perform]; rewrite ?Vk, ?EU; try reflexivity. do 2 eexists. split; [reflexivity|split; reflexivity].
      * destruct G as [_ (t' & E & Ft)]. cbn in Ft. rewrite K in E. injection E as <-. subst u. rewrite TYk. cbn [is_type]. rewrite Nat.eqb_refl. apply QUIET. cbn. repeat split; auto. eexists; split; [exact K|reflexivity].
      * apply QUIET. cbn. repeat split; auto. apply G.
      * destruct G as (-> & _ & t' & E & Ft). cbn in Ft. rewrite K in E. injection E as <-. subst u. rewrite nth_error_map, Vk. cbn [option_map gave].
        apply (READ (Gave x) (OGet k t)); try reflexivity; cbn [perform]; rewrite ?Vk, ?Nat.eqb_refl; try reflexivity. do 2 eexists. split; [reflexivity|split; reflexivity].
      * destruct G.
    + (* has *)
      destruct S as (_ & -> & E & -> & G). cbn [key_of] in E. subst k0.
      destruct g as [| | | |h|h]; cbn in G.
      * apply (READ (Gave 0) (OHas k)); try reflexivity; cbn [perform]; rewrite ?Vk; try reflexivity. do 2 eexists. split; [reflexivity|split; reflexivity].
      * destruct G as [G _]; discriminate.
      * destruct G as [G _]; discriminate.
      * destruct G as [G _]; discriminate.
      * destruct G as (_ & G & _); discriminate.
      * destruct G.
    + destruct S as (S & _); discriminate.
    + (* copy *)
      destruct S as (-> & A & L & G).
      destruct g as [| | | |h|h]; cbn [asked a_type] in *.
      * apply QUIET. cbn. repeat split; auto.
      * destruct G.
      * rewrite TYk. cbn [is_type]. rewrite Nat.eqb_refl. apply QUIET. cbn. repeat split; auto.
      * apply QUIET. cbn. repeat split; auto.
      * destruct G as [-> _]. rewrite nth_error_map, Vk. cbn [option_map].
        exists (Shared (attrs_of types) (map Some v)), (At SFind CCopy (S k) (acc ++ [(t, x)])), [Now i (OGet k t) (Gave x)], v, (Some (CCopy, map Gave (map snd (acc ++ [(t, x)])))).
        split; [reflexivity|]. split; [reflexivity|]. split; [exact T|]. split.
        { cbn [sound_pc]. split; [reflexivity|]. split; [rewrite (firstn_snoc _ _ t) by exact K; rewrite map_app, A; reflexivity|]. split; [lia|exact I]. }
        split; [reflexivity|]. split; [repeat constructor|]. split.
        -- intros h F. apply (F_now _ _ CCopy (map Gave (map snd acc)) (OGet k t) (Gave x)).
           ++ rewrite nth_copy, !map_length. assert (length acc = k) as -> by (rewrite <- (map_length fst), A, firstn_length; lia). rewrite K. reflexivity.
           ++ rewrite !map_app in F. exact F.
        -- intros h F. cbn [app performed perform]. rewrite Vk, Nat.eqb_refl. auto.
      * destruct G.
  - (* not found, or the end of a copy *)
    assert (Vk : nth_error v k = None) by (rewrite V in K; destruct (nth_error v k); [discriminate|reflexivity]).
    destruct c as [k0 y|k0 u|k0 u d|k0 u|k0|k0|]; cbn [sound_pc] in S.
    6: (destruct S as (S & _); discriminate).
    all: try (destruct S as (NC & -> & E & -> & G); cbn [key_of] in E; subst k0; try discriminate NC; cbn [absent];
      first [apply (READ Absent (OSet k y))|apply (READ Absent (OGet k u))|apply (READ Absent (OHas k))]; try reflexivity; cbn [perform]; rewrite ?Vk; try reflexivity;
      do 2 eexists; split; [reflexivity|split; reflexivity]).
    destruct S as (-> & A & L & G). apply QUIET. exists CCopy, (map Gave (map snd acc)). apply nth_error_None in K.
    assert (k = length types) as -> by lia. rewrite firstn_all in A.
    split; [reflexivity|]. split; [rewrite copy_length, !map_length, <- A, map_length; reflexivity|]. cbn [answer]. rewrite <- A, !map_map. f_equal. f_equal. apply combine_split.
Qed.

Lemma step_sim types v s w i o : inv types v s w -> step s i = Some o ->
  exists s' e ms v' x, o = Ok (s', e) /\ inv types v' s' (set_w w i x) /\ observed ms = e /\ Forall (of_thread i) ms /\
    (forall h, follows types i x h -> follows types i (w i) (ms ++ h)) /\ (forall h, performed v' h -> performed v (ms ++ h)).
Proof.
  intros I H. unfold step in H. destruct (nth_error (threads s) i) as [[td p]|] eqn:N; [|discriminate].
  destruct (i_threads _ _ _ _ I i td p N) as [C S]. destruct p as [|g c k acc|r].
  - destruct td as [|c cs]; [discriminate|]. injection H as <-. cbn in S. cbn [forallb] in C. apply andb_true_iff in C as [C1 C2].
    do 2 eexists. exists [Seen (Call i c)], v, (Some (c, [])). split; [reflexivity|]. split.
    { apply (inv_set types v v s _ w); auto; [exact (i_mem _ _ _ _ I)|exact (i_types _ _ _ _ I)|eauto|].
      destruct c; cbn; repeat split; auto; lia. }
    split; [reflexivity|]. split; [repeat constructor|]. split; [intros h F; rewrite S; apply F_call; exact F|]. intros h F. exact F.
  - rewrite (i_mem _ _ _ _ I) in H.
    destruct (inside_sim types v g c k acc (w i) i (i_types _ _ _ _ I) S) as (m & p' & ms & v' & w' & E & M & T & S' & O & Fo & Fl & P). rewrite E in H. injection H as <-.
    do 2 eexists. exists ms, v', w'. split; [reflexivity|]. split; [apply (inv_set types v v' s _ w); eauto|]. auto.
  - injection H as <-. destruct S as (c & rs & W & L & A). do 2 eexists. exists [Seen (Return i r)], v, None. split; [reflexivity|]. split.
    { apply (inv_set types v v s _ w); auto; [exact (i_mem _ _ _ _ I)|exact (i_types _ _ _ _ I)|eauto|reflexivity]. }
    split; [reflexivity|]. split; [repeat constructor|]. split; [intros h F; rewrite W; apply (F_return _ _ c rs); auto|]. intros h F. exact F.
Qed.

Lemma observed_app a b : observed (a ++ b) = observed a ++ observed b.
Proof. apply flat_map_app. Qed.
Lemma run_sim types is : forall v s w, inv types v s w ->
  exists s' es h, run s is = Ok (s', es) /\ observed h = es /\ (forall i, follows types i (w i) h) /\ performed v h.
Proof.
  induction is as [|i is IH]; intros v s w I; cbn [run].
  - exists s, [], []. repeat split; auto. intros i. constructor.
  - destruct (step s i) as [o|] eqn:E; [|apply (IH v s w I)].
    destruct (step_sim types v s w i o I E) as (s' & e & ms & v' & x & -> & I' & O & Fo & Fl & P).
    destruct (IH v' s' _ I') as (s'' & es & h & R & O' & Fh & Ph). rewrite R. exists s'', (e ++ es), (ms ++ h).
    split; [reflexivity|]. split; [rewrite observed_app; congruence|]. split; [|exact (P h Ph)].
    intros j. specialize (Fh j). unfold set_w in Fh. destruct (i =? j) eqn:J; [apply Nat.eqb_eq in J as <-; apply Fl; exact Fh|].
    apply Nat.eqb_neq in J. apply (follows_others types i j); auto.
Qed.
Lemma inv_start regs progs : forallb (forallb no_clear) progs = true -> inv (map fst regs) regs (start regs progs) (fun _ => None).
Proof.
  intros C. constructor; [|reflexivity|].
  - unfold start. cbn [mem]. rewrite <- registered_attrs. reflexivity.
  - intros i td p. unfold start. cbn [threads]. rewrite nth_error_map. destruct (nth_error progs i) as [q|] eqn:E; [|discriminate]. intros [= <- <-].
    split; [|reflexivity]. rewrite forallb_forall in C. apply C. eapply nth_error_In, E.
Qed.

(* ---- every call returns after a bounded number of steps of its thread ---- *)
Definition rest (n : nat) (p : pc) : nat :=
  match p with
  | Idle => 0
  | Done _ => 1
  | At g CCopy k _ => match g with SFind => 4 * (n - k) + 2 | SType => 4 * (n - S k) + 6 | SCast => 4 * (n - S k) + 5 | SPtr => 4 * (n - S k) + 4 | SRef _ | SDelete _ => 4 * (n - S k) + 3 end
  | At g _ _ _ => match g with SFind => 6 | SType => 5 | SCast => 4 | SPtr => 3 | SRef _ | SDelete _ => 2 end
  end.
Definition rest_thread (n : nat) (th : thread) : nat := list_sum (map (cost n) (todo th)) + rest n (at_ th).
Definition calls_of (i : nat) (es : list event) : list call := flat_map (fun e => match e with Call j c => if j =? i then [c] else [] | Return _ _ => [] end) es.
Definition returns_of (i : nat) (es : list event) : list result := flat_map (fun e => match e with Return j r => if j =? i then [r] else [] | Call _ _ => [] end) es.
Definition pending (p : pc) : nat := match p with Idle => 0 | _ => 1 end.

Lemma upd_length {A} i (x : A) l : length (upd i x l) = length l.
Proof. revert i. induction l as [|y l IH]; intros [|i]; cbn; auto. Qed.
Lemma inside_rest m g c k acc m' p' : inside m g c k acc = Ok (m', p') ->
  rest (length (attrs m)) p' < rest (length (attrs m)) (At g c k acc) /\ length (attrs m') = length (attrs m) /\ pending p' = 1.
Proof.
  intros H. unfold inside in H. destruct (nth_error (attrs m) k) as [a|] eqn:K.
  - assert (KL : k < length (attrs m)) by (apply nth_error_Some; congruence).
    destruct g as [| | | |h|h].
    + destruct c; try (injection H as <- <-; cbn [rest pending]; repeat split; lia).
      destruct (a_content a); injection H as <- <-; cbn [rest pending attrs]; rewrite ?upd_length; repeat split; lia.
    + destruct (type_of m (a_content a)) as [o|]; [|discriminate]. destruct (is_type o (asked c a)); injection H as <- <-; destruct c; cbn [rest pending]; repeat split; lia.
    + destruct (type_of m (a_content a)) as [o|]; [|discriminate]. destruct (is_type o (asked c a)); injection H as <- <-; destruct c; cbn [rest pending]; repeat split; lia.
    + destruct (a_content a); injection H as <- <-; destruct c; cbn [rest pending]; repeat split; lia.
    + destruct (nth_error (heap m) h) as [[[u v]|]|]; try discriminate.
      destruct c as [k0 y| | | | | |]; try (injection H as <- <-; cbn [rest pending]; repeat split; lia).
      destruct y as [[t y]|]; [|injection H as <- <-; cbn [rest pending]; repeat split; lia].
      destruct (t =? a_type a); injection H as <- <-; cbn [rest pending attrs]; repeat split; lia.
    + destruct (nth_error (heap m) h) as [[x|]|]; try discriminate. injection H as <- <-. destruct c; cbn [rest pending attrs]; repeat split; lia.
  - injection H as <- <-. split; [|split; reflexivity]. destruct c; destruct g; cbn [rest]; lia.
Qed.
Lemma step_rest s i s' e : step s i = Some (Ok (s', e)) ->
  length (attrs (mem s')) = length (attrs (mem s)) /\
  (forall j, j <> i -> nth_error (threads s') j = nth_error (threads s) j /\ calls_of j e = [] /\ returns_of j e = []) /\
  exists th th', nth_error (threads s) i = Some th /\ nth_error (threads s') i = Some th' /\
    rest_thread (length (attrs (mem s))) th' < rest_thread (length (attrs (mem s))) th /\
    todo th = calls_of i e ++ todo th' /\ length (returns_of i e) + pending (at_ th') = pending (at_ th) + length (calls_of i e).
Proof.
  intros H. unfold step in H. destruct (nth_error (threads s) i) as [[td p]|] eqn:N; [|discriminate].
  assert (O : forall th j, j <> i -> nth_error (upd i th (threads s)) j = nth_error (threads s) j).
  { intros th j J. rewrite nth_upd. destruct (i =? j) eqn:E; [apply Nat.eqb_eq in E; congruence|reflexivity]. }
  assert (O' : forall th, nth_error (upd i th (threads s)) i = Some th) by (intros th; rewrite nth_upd, Nat.eqb_refl, N; reflexivity).
  assert (J' : forall j, j <> i -> (i =? j) = false) by (intros j J; apply Nat.eqb_neq; congruence).
  destruct p as [|g c k acc|r].
  - destruct td as [|c cs]; [discriminate|]. injection H as <- <-. cbn [mem threads]. split; [reflexivity|]. split.
    + intros j J. rewrite O by exact J. unfold calls_of, returns_of. cbn [flat_map app]. rewrite (J' j J). auto.
    + do 2 eexists. split; [reflexivity|]. split; [apply O'|]. unfold calls_of, returns_of. cbn [flat_map app]. rewrite Nat.eqb_refl. unfold rest_thread. cbn [todo at_ map app list_sum fold_right pending length].
      split; [|split; [reflexivity|lia]]. change (fold_right Init.Nat.add 0 (map (cost (length (attrs (mem s)))) cs)) with (list_sum (map (cost (length (attrs (mem s)))) cs)).
      destruct c; cbn [rest cost key_of]; lia.
  - destruct (inside (mem s) g c k acc) as [[m p']|] eqn:E; [|discriminate]. injection H as <- <-. destruct (inside_rest _ _ _ _ _ _ _ E) as (R & L & P). cbn [mem threads].
    split; [exact L|]. split; [intros j J; rewrite O by exact J; auto|]. do 2 eexists. split; [reflexivity|]. split; [apply O'|]. unfold rest_thread. cbn [todo at_ calls_of returns_of flat_map app length].
    split; [lia|]. split; [reflexivity|]. rewrite P. reflexivity.
  - injection H as <- <-. cbn [mem threads]. split; [reflexivity|]. split.
    + intros j J. rewrite O by exact J. unfold calls_of, returns_of. cbn [flat_map app]. rewrite (J' j J). auto.
    + do 2 eexists. split; [reflexivity|]. split; [apply O'|]. unfold calls_of, returns_of. cbn [flat_map app]. rewrite Nat.eqb_refl. unfold rest_thread. cbn [todo at_ rest length pending app]. repeat split; lia.
Qed.
Lemma step_none s i th : step s i = None -> nth_error (threads s) i = Some th -> todo th = [] /\ at_ th = Idle.
Proof.
  intros H N. unfold step in H. rewrite N in H. destruct th as [td p]. destruct p as [|g c k acc|r]; [destruct td; [auto|discriminate]| |discriminate].
  destruct (inside (mem s) g c k acc) as [[m p']|]; discriminate.
Qed.
Lemma run_none is : forall s i th s' es, run s is = Ok (s', es) -> nth_error (threads s) i = Some th -> todo th = [] -> at_ th = Idle ->
  calls_of i es = [] /\ returns_of i es = [].
Proof.
  induction is as [|j is IH]; intros s i th s' es R N T P; cbn [run] in R; [injection R as <- <-; auto|].
  destruct (step s j) as [[[s1 e]|]|] eqn:E; [|discriminate|exact (IH _ _ _ _ _ R N T P)].
  destruct (run s1 is) as [[s2 es']|] eqn:R1; [|discriminate]. injection R as <- <-.
  destruct (Nat.eq_dec j i) as [->|J].
  - unfold step in E. rewrite N in E. destruct th as [td p]. cbn in T, P. subst. discriminate.
  - destruct (step_rest _ _ _ _ E) as (_ & O & _). destruct (O i ltac:(congruence)) as (N1 & C & Rt). rewrite N in N1.
    destruct (IH _ _ _ _ _ R1 N1 T P) as [C' R']. unfold calls_of, returns_of in *. rewrite !flat_map_app, C, C', Rt, R'. auto.
Qed.
Lemma run_rest is : forall s i th s' es, run s is = Ok (s', es) -> nth_error (threads s) i = Some th ->
  rest_thread (length (attrs (mem s))) th <= count_occ Nat.eq_dec is i ->
  calls_of i es = todo th /\ length (returns_of i es) = pending (at_ th) + length (todo th).
Proof.
  assert (Z : forall n th, rest_thread n th = 0 -> todo th = [] /\ at_ th = Idle).
  { intros n [td p] H. unfold rest_thread in H. cbn [todo at_] in *. destruct p as [|g c k acc|r]; cbn [rest] in H; [|destruct c, g; cbn in H; lia|lia].
    destruct td as [|c td]; [auto|]. cbn in H. destruct c; cbn in H; lia. }
  induction is as [|j is IH]; intros s i th s' es R N L.
  - cbn in L. destruct (Z (length (attrs (mem s))) th ltac:(lia)) as [T P]. destruct (run_none _ _ _ _ _ _ R N T P) as [-> ->]. rewrite T, P. auto.
  - cbn [run] in R. cbn [count_occ] in L. destruct (step s j) as [[[s1 e]|]|] eqn:E; [|discriminate|].
    + destruct (run s1 is) as [[s2 es']|] eqn:R1; [|discriminate]. injection R as <- <-. destruct (step_rest _ _ _ _ E) as (A & O & th0 & th1 & N0 & N1 & Lt & T & P).
      unfold calls_of, returns_of in *. rewrite !flat_map_app. revert L. destruct (Nat.eq_dec j i) as [->|J]; intros L.
      * rewrite N in N0. injection N0 as <-. destruct (IH _ _ _ _ _ R1 N1) as [C1 C2]; [rewrite A; lia|]. rewrite C1, app_length, C2. split; [congruence|].
        rewrite T, app_length. lia.
      * destruct (O i ltac:(congruence)) as (N1' & C & Rt). rewrite N in N1'. destruct (IH _ _ _ _ _ R1 N1') as [C1 C2]; [rewrite A; exact L|]. rewrite C, Rt, C1. auto.
    + revert L. destruct (Nat.eq_dec j i) as [->|J]; intros L; [|exact (IH _ _ _ _ _ R N L)]. destruct (step_none _ _ _ E N) as [T P]. destruct (run_none _ _ _ _ _ _ R N T P) as [-> ->]. rewrite T, P. auto.
Qed.
