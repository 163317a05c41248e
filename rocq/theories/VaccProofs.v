From Coq Require Import List Bool Arith Lia.
From Verif Require Import LifeModel LifeProofs VarModel VarSpec VarProofs VaccModel VaccSpec.
Import ListNotations.

Section Proofs.
Context {V : Type}.
Variable husk0 : V -> V.
Notation world := (world (nat * V) vf).

(* losing an element of the list of throws *)
Definition used (w : world) : world :=
  MkWorld (cells w) (vars w) (built w) (ended w) (lost w) (tl (throws w)).
Definition will (w : world) : bool := hd false (throws w).

Lemma R_used w (st : state V) : R w st -> R (used w) st.
Proof. intros (A & B & C & D & E). exact (conj A (conj B (conj C (conj D E)))). Qed.

Lemma make_is (v : V) (w : world) :
  VaccModel.make v w = if will w then Threw (used w) else Done v (used w).
Proof.
  unfold VaccModel.make, bind, next_throws, will, used, throw, ret. destruct w as [c vs b e l [|[|] t]]; reflexivity.
Qed.

Lemma has_emptied (x : option (list nat * content V)) : has (emptied husk0 x) = has x.
Proof. destruct x as [[l [t v| |[[t v]|]]]|]; reflexivity. Qed.
Lemma idx_emptied (x : option (list nat * content V)) : option_map idx (emptied husk0 x) = option_map idx x.
Proof. destruct x as [[l [t v| |[[t v]|]]]|]; reflexivity. Qed.
Lemma object_emptied (x : option (list nat * content V)) t v : object x = Some (t, v) -> object (emptied husk0 x) = Some (t, husk0 v).
Proof. destruct x as [[l [u y| |[[u y]|]]]|]; cbn; congruence. Qed.

Definition hollowed (i : nat) (x : nat * V) (w : world) : world := set_cell i 0 (Some x) w.

Lemma R_take w (st : state V) i t v : R w st -> object (var st i) = Some (t, v) ->
  R (hollowed i (t, husk0 v) w) (on_vars st (put (var st) i (emptied husk0 (var st i)))).
Proof.
  intros (A & B & C & (n & D1 & D2) & E) O. split; [|split; [|split; [|split]]].
  - intros k. cbn. unfold put. destruct (Nat.eqb_spec k i) as [-> |]; [rewrite idx_emptied|]; apply A.
  - intros k j. cbn. unfold upd, put. destruct (Nat.eqb_spec k i) as [-> |]; [|apply B].
    destruct j as [|j]; cbn; [now rewrite (object_emptied _ _ _ O)|]. apply (B i (S j)).
  - exact C.
  - exists n. split; [|exact D2]. refine (counted_ext _ _ _ D1 _). intros k. cbn. unfold put.
    destruct (Nat.eqb_spec k i) as [-> |]; [now rewrite has_emptied | reflexivity].
  - intros k x. cbn. unfold put. destruct (Nat.eqb_spec k i) as [-> |]; [|apply E].
    destruct (var st i) as [[l [u y| |[[u y]|]]]|] eqn:F; cbn in O |- *; try discriminate;
      intros [= <-]; destruct (E i _ F) as (E1 & E2); split; auto.
Qed.

Lemma as_type_is w (st : state V) i t v : R w st -> object (var st i) = Some (t, v) -> as_type i t w = Done (t, v) w.
Proof.
  intros (_ & B & _) O. unfold as_type, bind, read. rewrite (B i 0), O. cbn. rewrite Nat.eqb_refl. reflexivity.
Qed.

Lemma as_type_not w (st : state V) i t : R w st -> (forall v, object (var st i) <> Some (t, v)) -> as_type i t w = Undef.
Proof.
  intros (_ & B & _) O. unfold as_type, bind, read. rewrite (B i 0). destruct (object (var st i)) as [[u v]|] eqn:E; [|reflexivity].
  cbn. destruct (Nat.eqb_spec u t) as [-> |]; [destruct (O v eq_refl) | reflexivity].
Qed.

Lemma fetch_is w (st : state V) i t v (m : bool) : R w st -> object (var st i) = Some (t, v) ->
  fetch husk0 i t m w = if will w then Threw (used w)
                        else Done v (if m then hollowed i (t, husk0 v) (used w) else used w).
Proof.
  intros H O. unfold fetch, bind at 1. rewrite (as_type_is w st i t v H O). cbn [snd].
  destruct m; [|rewrite make_is; reflexivity].
  unfold bind. rewrite make_is. destruct (will w); [reflexivity|].
  unfold hollow. cbn [cells used]. destruct H as (_ & B & _). rewrite (B i 0), O. reflexivity.
Qed.

Lemma fetch_undef w (st : state V) i t m : R w st -> (forall v, object (var st i) <> Some (t, v)) -> fetch husk0 i t m w = Undef.
Proof. intros H O. unfold fetch, bind at 1. now rewrite (as_type_not w st i t H O). Qed.

Lemma take_R w (st : state V) i t v c : R w st -> object (var st i) = Some (t, v) ->
  R (if movable c then hollowed i (t, husk0 v) (used w) else used w) (take husk0 c i st).
Proof.
  intros H O. destruct c; cbn; try (apply R_used; exact H). apply R_take; [apply R_used; exact H | exact O].
Qed.

Lemma vars_is w (st : state V) i x : R w st -> var st i = Some x -> vars w i = Some (idx x).
Proof. intros (A & _) E. rewrite A, E. reflexivity. Qed.

(* does the variant hold the alternative at place k? *)
Lemma index_found w (st : state V) i l c t k : R w st -> var st i = Some (l, c) -> t <> 0 -> nth_error l k = Some t ->
  same_index (index (idx (l, c))) (Some k) = match found st i t with Some _ => true | None => false end.
Proof.
  intros (_ & _ & _ & _ & W) E T N. destruct (W i _ E) as (ND & C). cbn in ND, C. unfold found. rewrite E. cbn.
  assert (U : forall u m, list_find l u = Some m -> (m =? k) = (u =? t)).
  { intros u m F. apply list_find_nth in F. destruct (Nat.eqb_spec u t) as [-> |N'].
    - apply Nat.eqb_eq. apply (proj1 (NoDup_nth_error l) ND); [apply nth_error_Some; congruence | congruence].
    - apply Nat.eqb_neq. intros ->. congruence. }
  destruct c as [u v| |x]; cbn [fst snd].
  - destruct C as (C & _). destruct (list_find_in l u C) as (m & F & _). rewrite F. cbn. rewrite (U u m F).
    destruct (u =? t); reflexivity.
  - destruct (list_find_in l 0 C) as (m & F & _). rewrite F. cbn. rewrite (U 0 m F).
    apply Nat.eqb_neq. congruence.
  - reflexivity.
Qed.

Lemma found_object (st : state V) i t v : found st i t = Some v -> object (var st i) = Some (t, v).
Proof.
  unfold found. destruct (var st i) as [[l [u y| |x]]|]; try discriminate. cbn.
  destruct (Nat.eqb_spec u t) as [-> |]; [|discriminate]. congruence.
Qed.

Lemma empty_is w (st : state V) i : R w st -> there st i -> is_empty_ i w = Done (holds_void st i) w.
Proof.
  intros H (x & E). pose proof H as (_ & _ & _ & _ & W). pose proof (W i x E) as (ND & C).
  unfold is_empty_, bind, fields. rewrite (vars_is w st i x H E). destruct x as [l c]. cbn in *. unfold holds_void. rewrite E.
  destruct c as [t v| |y]; cbn [fst snd].
  - destruct C as (C & T). destruct (list_find l 0) as [k|] eqn:F; [|reflexivity].
    destruct (list_find_in l t C) as (m & G & _). rewrite G. cbn.
    replace (m =? k) with false; [reflexivity|]. symmetry. apply Nat.eqb_neq. exact (find_diff l t 0 m k G F T).
  - destruct (list_find_in l 0 C) as (k & F & _). rewrite F. cbn. rewrite Nat.eqb_refl. reflexivity.
  - destruct (list_find l 0); reflexivity.
Qed.

Definition agrees (e : ending V) (r : outcome V) : Prop :=
  match e, r with
  | Shows x w, Says y st => x = y /\ R w st
  | Terminated, Dies => True
  | _, _ => False
  end.

Lemma get_at_is w (st : state V) i l c t k q : R w st -> var st i = Some (l, c) -> t <> 0 -> nth_error l k = Some t ->
  agrees (get_at husk0 i k q w) (checked husk0 (found st i t) (will w) i q st).
Proof.
  intros H E T N. unfold get_at, at_index. rewrite (vars_is w st i _ H E). cbn [alts idx fst]. rewrite N.
  rewrite (index_found w st i l c t k H E T N). destruct (found st i t) as [v|] eqn:F; [|split; auto].
  apply found_object in F. unfold plain_end. rewrite (fetch_is w st i t v _ H F). cbn [checked].
  destruct (will w); [split; [reflexivity | apply R_used; exact H]|].
  split; [reflexivity|]. apply take_R; assumption.
Qed.

Lemma get_or_at_is w (st : state V) i l c t k d q : R w st -> var st i = Some (l, c) -> t <> 0 -> nth_error l k = Some t ->
  agrees (get_or_at husk0 i k d q w) (defaulted husk0 (found st i t) d (will w) i q st).
Proof.
  intros H E T N. unfold get_or_at, at_index. rewrite (vars_is w st i _ H E). cbn [alts idx fst]. rewrite N.
  rewrite (index_found w st i l c t k H E T N). unfold defaulted. destruct (found st i t) as [v|] eqn:F.
  - apply found_object in F. unfold noexcept_end. rewrite (fetch_is w st i t v _ H F).
    destruct (will w); [exact I|]. split; [reflexivity|]. apply take_R; assumption.
  - unfold noexcept_end. rewrite make_is. destruct (will w); [exact I|]. split; [reflexivity | apply R_used; exact H].
Qed.

Lemma alternative_at w (st : state V) i l c t : R w st -> var st i = Some (l, c) -> alternative l t ->
  exists k, index_of i t w = Some k /\ nth_error l k = Some t.
Proof.
  intros H E (A & _). destruct (list_find_in l t A) as (k & F & N). exists k. split; [|exact N].
  unfold index_of. rewrite (vars_is w st i _ H E). exact F.
Qed.

Theorem access_works w (st : state V) a : R w st -> allowed a st ->
  exists r, expected husk0 a st (will w) r /\ agrees (do_access husk0 a w) r.
Proof.
  intros H A. destruct a as [i|i|i t|i|i|i j|i k c|i t c|i k d c|i t d c|i t c|i t c|i t]; cbn [allowed expected do_access] in *.
  - destruct A as ((l & c) & E). pose proof H as (_ & _ & _ & _ & W). destruct (W i _ E) as (ND & C). cbn in C.
    unfold observe, fields. rewrite (vars_is w st i _ H E). rewrite E.
    destruct c as [t v| |x]; cbn.
    + destruct (list_find_in l t (proj1 C)) as (k & F & N). exists (Says (Index k) st). rewrite F. cbn. eauto.
    + destruct (list_find_in l 0 C) as (k & F & N). exists (Says (Index k) st). rewrite F. cbn. eauto.
    + exists (Says (Index 255) st). cbn. eauto.
  - eexists. split; [reflexivity|]. destruct A as (l & A). pose proof H as (_ & _ & _ & _ & W).
    unfold observe, bind, fields, dispatch. destruct A as [(t & v & E) | E]; destruct (W i _ E) as (ND & C); cbn in C;
      rewrite (vars_is w st i _ H E), E; cbn.
    + destruct (list_find_in l t (proj1 C)) as (k & F & N). rewrite F. unfold bind, fields.
      rewrite (vars_is w st i _ H E). cbn. rewrite N. cbn. auto.
    + destruct (list_find_in l 0 C) as (k & F & N). rewrite F. unfold bind, fields.
      rewrite (vars_is w st i _ H E). cbn. rewrite N. cbn. auto.
  - eexists. split; [reflexivity|]. destruct A as ((l & c) & E). pose proof (R_seen w st H) as (S1 & S2 & S3).
    unfold observe. rewrite E. destruct c as [u v| |x].
    + destruct (S1 i l u v E) as (_ & _ & _ & S & _). rewrite S. cbn. rewrite Nat.eqb_sym. auto.
    + destruct (S2 i l E) as (_ & S & _). rewrite S. cbn. auto.
    + destruct (S3 i l x E) as (_ & S & _). rewrite S. cbn. auto.
  - eexists. split; [reflexivity|]. unfold observe. rewrite (empty_is w st i H A). cbn. auto.
  - eexists. split; [reflexivity|]. unfold observe. rewrite (empty_is w st i H A). cbn. auto.
  - eexists. split; [reflexivity|]. destruct A as (A & B). unfold observe, bind.
    rewrite (empty_is w st i H A), (empty_is w st j H B). cbn. split; [|exact H].
    destruct (holds_void st i), (holds_void st j); reflexivity.
  - eexists. split; [reflexivity|]. destruct A as (l & q & t & E & N & T).
    assert (AT : at_ st i k = t) by (unfold at_; rewrite E; exact (nth_error_nth l k 0 N)). rewrite AT.
    exact (get_at_is w st i l q t k c H E T N).
  - eexists. split; [reflexivity|]. destruct A as (l & q & E & A).
    destruct (alternative_at w st i l q t H E A) as (k & F & N). rewrite F. exact (get_at_is w st i l q t k c H E (proj2 A) N).
  - eexists. split; [reflexivity|]. destruct A as (l & q & t & E & N & T).
    assert (AT : at_ st i k = t) by (unfold at_; rewrite E; exact (nth_error_nth l k 0 N)). rewrite AT.
    exact (get_or_at_is w st i l q t k d c H E T N).
  - eexists. split; [reflexivity|]. destruct A as (l & q & E & A).
    destruct (alternative_at w st i l q t H E A) as (k & F & N). rewrite F. exact (get_or_at_is w st i l q t k d ConstLvalue H E (proj2 A) N).
  - eexists. split; [reflexivity|]. destruct A as (l & q & E & A).
    destruct (alternative_at w st i l q t H E A) as (k & F & N). rewrite F.
    rewrite (vars_is w st i _ H E), (index_found w st i l q t k H E (proj2 A) N).
    destruct (found st i t) as [v|] eqn:G; [|split; auto].
    apply found_object in G. unfold noexcept_end. rewrite (fetch_is w st i t v _ H G).
    destruct (will w); [exact I|]. split; [reflexivity|]. apply take_R; assumption.
  - destruct A as (v & O). eexists. split; [exists v; split; [exact O | reflexivity]|].
    unfold plain_end. rewrite (fetch_is w st i t v _ H O). destruct (will w); [split; [reflexivity | apply R_used; exact H]|].
    split; [reflexivity|]. apply take_R; assumption.
  - destruct A as (v & O). eexists. split; [exists v; split; [exact O | reflexivity]|].
    unfold observe. rewrite (as_type_is w st i t v H O). split; [reflexivity | exact H].
Qed.

Theorem dead_access w (st : state V) i t : R w st -> (forall v, object (var st i) <> Some (t, v)) ->
  do_access husk0 (Look i t) w = Nonsense /\ forall c, do_access husk0 (GetUnsafe i t c) w = Nonsense.
Proof.
  intros H O. cbn. unfold observe, plain_end. rewrite (as_type_not w st i t H O). split; [reflexivity|].
  intros c. now rewrite (fetch_undef w st i t _ H O).
Qed.

Lemma reads_keep a (st : state V) threw x st' : reads_only a = true -> expected husk0 a st threw (Says x st') -> st' = st.
Proof.
  destruct a as [i|i|i t|i|i|i j|i k c|i t c|i k d c|i t d c|i t c|i t c|i t]; cbn; intros RO E; try congruence.
  - destruct E as (k & _ & E). congruence.
  - unfold checked in E. destruct (found st i (at_ st i k)); [|congruence]. destruct threw; [congruence|]. destruct c; cbn in E; congruence.
  - unfold checked in E. destruct (found st i t); [|congruence]. destruct threw; [congruence|]. destruct c; cbn in E; congruence.
  - unfold defaulted in E. destruct threw; [congruence|]. destruct (found st i (at_ st i k)); [|congruence]. destruct c; cbn in E; congruence.
  - unfold defaulted in E. destruct threw; [congruence|]. destruct (found st i t); cbn in E; congruence.
  - destruct (found st i t); [|congruence]. destruct threw; [congruence|]. destruct c; cbn in E; congruence.
  - destruct E as (v & _ & E). destruct threw; [congruence|]. destruct c; cbn in E; congruence.
  - destruct E as (v & _ & E). congruence.
Qed.

End Proofs.
