From Coq Require Import List Bool Arith Lia.
From Verif Require Import CastModel CastSpec.
Import ListNotations.

Section Proofs.

Context {V : Type}.
Variable copyable : nat -> bool.
Variable husk : V -> V.
Notation step := (cstep copyable husk).
Notation run := (crun copyable husk).

Lemma put_same A (f : nat -> A) i x : put f i x i = x.
Proof. unfold put. now rewrite Nat.eqb_refl. Qed.
Lemma put_other A (f : nat -> A) i x j : j <> i -> put f i x j = f j.
Proof. intros N. unfold put. apply Nat.eqb_neq in N. now rewrite N. Qed.

(* content by the heap *)
Definition val (h : nat -> option (sty * V)) (p : option (option nat)) : option (option (item V)) :=
  match p with
  | None => None
  | Some None => Some None
  | Some (Some a) => match h a with Some (s, v) => Some (Some (MkItem a s v)) | None => None end
  end.
Lemma content_val w i : content w i = val (cheap w) (cvars w i).
Proof. reflexivity. Qed.

Definition at_ (p : option (option nat)) (a : nat) : Prop := p = Some (Some a).

Lemma val_put h a x p : p <> Some (Some a) -> val (put h a x) p = val h p.
Proof.
  intros N. destruct p as [[b|]|]; cbn; try reflexivity.
  rewrite put_other; [reflexivity | congruence].
Qed.

Record Inv (w : cworld V) : Prop := MkInv {
  inv_live : forall i a, cvars w i = Some (Some a) -> exists s v, cheap w a = Some (s, v);
  inv_one : forall i j a, cvars w i = Some (Some a) -> cvars w j = Some (Some a) -> i = j;
  inv_next : forall a, cnext w <= a -> cheap w a = None;
  inv_owned : forall a h, cheap w a = Some h -> exists i, cvars w i = Some (Some a);
  inv_refs : forall q a, refs w q = Some (Payload a) -> a < cnext w
}.

Lemma inv_start m : Inv (cstart m).
Proof. split; cbn; try discriminate; reflexivity. Qed.

Lemma inv_below w i a : Inv w -> cvars w i = Some (Some a) -> a < cnext w.
Proof.
  intros I H. destruct (inv_live w I _ _ H) as (s & v & E).
  destruct (le_lt_dec (cnext w) a) as [L|L]; [|assumption]. rewrite (inv_next w I a L) in E. discriminate.
Qed.

Lemma content_none w i : Inv w -> content w i = None <-> cvars w i = None.
Proof.
  intros I. rewrite content_val. destruct (cvars w i) as [[a|]|] eqn:E; cbn; try tauto.
  - destruct (inv_live w I _ _ E) as (s & v & ->). split; discriminate.
  - split; discriminate.
Qed.

(* moving pointers about *)
Lemma inv_new w i p w' : Inv w -> cvars w i = None -> (p = None) ->
  w' = set_any i (Some p) w -> Inv w'.
Proof.
  intros I N -> ->. split; cbn.
  - intros k a. unfold put. destruct (k =? i); [discriminate|]. apply (inv_live w I).
  - intros k j a. unfold put. destruct (k =? i), (j =? i); try discriminate. apply (inv_one w I).
  - apply (inv_next w I).
  - intros a h H. destruct (inv_owned w I a h H) as (k & K). exists k. rewrite put_other; [assumption|].
    intros ->. congruence.
  - apply (inv_refs w I).
Qed.

(* make, and put the pointer where there is none *)
Lemma inv_make w i s v : Inv w -> cvars w i <> None -> forall old, cvars w i = Some old ->
  Inv (free old (set_any i (Some (Some (cnext w))) (snd (make s v w)))).
Proof.
  intros I _ old O.
  assert (Hh : forall a, cheap (free old (set_any i (Some (Some (cnext w))) (snd (make s v w)))) a =
               (if a =? cnext w then Some (s, v) else
                match old with Some b => if a =? b then None else cheap w a | None => cheap w a end)).
  { intros a. destruct old as [b|]; cbn; unfold put.
    - pose proof (inv_below w i b I O). destruct (a =? b) eqn:E; [|reflexivity].
      apply Nat.eqb_eq in E. subst. destruct (b =? cnext w) eqn:E'; [apply Nat.eqb_eq in E'; lia|reflexivity].
    - reflexivity. }
  assert (Hv : forall k, cvars (free old (set_any i (Some (Some (cnext w))) (snd (make s v w)))) k =
               if k =? i then Some (Some (cnext w)) else cvars w k).
  { intros k. destruct old; reflexivity. }
  assert (Hn : cnext (free old (set_any i (Some (Some (cnext w))) (snd (make s v w)))) = S (cnext w)) by (destruct old; reflexivity).
  assert (Hr : refs (free old (set_any i (Some (Some (cnext w))) (snd (make s v w)))) = refs w) by (destruct old; reflexivity).
  split.
  - intros k a. rewrite Hv, Hh. destruct (k =? i) eqn:Ek.
    + intros [= <-]. rewrite Nat.eqb_refl. eauto.
    + intros K. pose proof (inv_below w k a I K). destruct (Nat.eqb_spec a (cnext w)); [lia|].
      destruct (inv_live w I _ _ K) as (s' & v' & E). destruct old as [b|]; [|eauto].
      destruct (Nat.eqb_spec a b); [|eauto]. subst. apply Nat.eqb_neq in Ek.
      destruct Ek. exact (inv_one w I k i b K O).
  - intros k j a. rewrite !Hv. destruct (Nat.eqb_spec k i), (Nat.eqb_spec j i); subst; try congruence.
    + intros [= <-] J. pose proof (inv_below w j _ I J). lia.
    + intros K [= <-]. pose proof (inv_below w k _ I K). lia.
    + apply (inv_one w I).
  - intros a. rewrite Hn, Hh. intros L. destruct (Nat.eqb_spec a (cnext w)); [lia|].
    rewrite (inv_next w I a) by lia. destruct old as [b|]; [destruct (a =? b)|]; reflexivity.
  - intros a h. rewrite Hh. destruct (Nat.eqb_spec a (cnext w)).
    + intros _. exists i. rewrite Hv, Nat.eqb_refl. congruence.
    + intros H. assert (E : cheap w a = Some h) by (destruct old as [b|]; [destruct (a =? b); [discriminate|]|]; exact H).
      destruct (inv_owned w I a h E) as (k & K). exists k. rewrite Hv.
      destruct (Nat.eqb_spec k i); [|exact K]. subst. rewrite O in K. injection K as ->.
      rewrite Nat.eqb_refl in H. discriminate.
  - intros q a. rewrite Hr, Hn. intros H. pose proof (inv_refs w I q a H). lia.
Qed.

Lemma inv_make_new w i s v : Inv w -> cvars w i = None -> Inv (set_any i (Some (Some (cnext w))) (snd (make s v w))).
Proof.
  intros I N. assert (J := inv_new w i None _ I N eq_refl eq_refl).
  assert (K : cvars (set_any i (Some None) w) i = Some None) by (cbn; apply put_same).
  assert (Q := inv_make _ i s v J ltac:(rewrite K; discriminate) None K). cbn in Q.
  split; cbn.
  - intros k a H. apply (inv_live _ Q k a). cbn. unfold put in *. destruct (k =? i); exact H.
  - intros k j a H H'. apply (inv_one _ Q k j a); cbn; unfold put in *; [destruct (k =? i) | destruct (j =? i)]; assumption.
  - apply (inv_next _ Q).
  - intros a h H. destruct (inv_owned _ Q a h H) as (k & E). exists k. cbn in E. unfold put in *. destruct (k =? i); exact E.
  - apply (inv_refs _ Q).
Qed.

(* giving up what an any holds: p is its content afterwards *)
Lemma inv_free w i old p : Inv w -> cvars w i = Some old -> p = None \/ p = Some None ->
  Inv (free old (set_any i p w)).
Proof.
  intros I O P.
  assert (Hh : forall a, cheap (free old (set_any i p w)) a =
               match old with Some b => if a =? b then None else cheap w a | None => cheap w a end)
    by (intros a; destruct old; reflexivity).
  assert (Hv : forall k, cvars (free old (set_any i p w)) k = if k =? i then p else cvars w k)
    by (intros k; destruct old; reflexivity).
  assert (Hn : cnext (free old (set_any i p w)) = cnext w) by (destruct old; reflexivity).
  assert (Hr : refs (free old (set_any i p w)) = refs w) by (destruct old; reflexivity).
  assert (P' : forall a, p <> Some (Some a)) by (intros a; destruct P as [-> | ->]; discriminate).
  split.
  - intros k a. rewrite Hv, Hh. destruct (Nat.eqb_spec k i); [intros K; destruct (P' a K)|]. intros K.
    destruct old as [b|]; [|exact (inv_live w I k a K)].
    destruct (Nat.eqb_spec a b); [|exact (inv_live w I k a K)]. subst. destruct n. exact (inv_one w I k i b K O).
  - intros k j a. rewrite !Hv. destruct (k =? i), (j =? i); intros A B;
      [destruct (P' a A) | destruct (P' a A) | destruct (P' a B) | exact (inv_one w I k j a A B)].
  - intros a. rewrite Hn, Hh. intros L. rewrite (inv_next w I a L). destruct old as [b|]; [destruct (a =? b)|]; reflexivity.
  - intros a h. rewrite Hh. intros H.
    assert (E : cheap w a = Some h) by (destruct old as [b|]; [destruct (a =? b); [discriminate|]|]; exact H).
    destruct (inv_owned w I a h E) as (k & K). exists k. rewrite Hv.
    destruct (Nat.eqb_spec k i); [|exact K]. subst. rewrite O in K. injection K as ->.
    rewrite Nat.eqb_refl in H. discriminate.
  - intros q a. rewrite Hr, Hn. apply (inv_refs w I).
Qed.

(* two anys exchange what they hold *)
Lemma inv_swap w i j p q : Inv w -> cvars w i = Some p -> cvars w j = Some q ->
  Inv (set_any i (Some q) (set_any j (Some p) w)).
Proof.
  intros I P Q.
  assert (Hv : forall k, cvars (set_any i (Some q) (set_any j (Some p) w)) k =
               if k =? i then cvars w j else if k =? j then cvars w i else cvars w k).
  { intros k. cbn. unfold put. rewrite P, Q. reflexivity. }
  split.
  - intros k a. rewrite Hv. cbn. destruct (k =? i); [|destruct (k =? j)]; apply (inv_live w I).
  - intros k l a. rewrite !Hv.
    destruct (Nat.eqb_spec k i), (Nat.eqb_spec l i); subst; try reflexivity;
      repeat match goal with |- context[?x =? ?y] => destruct (Nat.eqb_spec x y) end; subst; try reflexivity;
      intros A B; pose proof (inv_one w I _ _ a A B); congruence.
  - apply (inv_next w I).
  - intros a h H. destruct (inv_owned w I a h H) as (k & K).
    destruct (Nat.eqb_spec k i) as [-> |]; [exists j; rewrite Hv; destruct (Nat.eqb_spec j i); [subst; exact K|now rewrite Nat.eqb_refl]|].
    destruct (Nat.eqb_spec k j) as [-> |]; [exists i; rewrite Hv, Nat.eqb_refl; exact K|].
    exists k. rewrite Hv. apply Nat.eqb_neq in n, n0. now rewrite n, n0.
  - apply (inv_refs w I).
Qed.

(* a payload gets another value *)
Lemma inv_value w a s v s' v' : Inv w -> cheap w a = Some (s, v) -> Inv (set_heap a (Some (s', v')) w).
Proof.
  intros I H. split; cbn.
  - intros k b K. unfold put. destruct (b =? a); [eauto | exact (inv_live w I k b K)].
  - apply (inv_one w I).
  - intros b L. rewrite put_other; [exact (inv_next w I b L)|]. intros ->. rewrite (inv_next w I a L) in H. discriminate.
  - intros b h. unfold put. destruct (Nat.eqb_spec b a); [subst; intros _; exact (inv_owned w I _ _ H) | apply (inv_owned w I)].
  - apply (inv_refs w I).
Qed.

Lemma inv_ref w q p : Inv w -> (forall a, p = Some (Payload a) -> a < cnext w) -> Inv (set_ref q p w).
Proof.
  intros I P. split; cbn; [apply (inv_live w I) | apply (inv_one w I) | apply (inv_next w I) | apply (inv_owned w I) |].
  intros r a. unfold put. destruct (r =? q); [apply P | apply (inv_refs w I)].
Qed.

Lemma inv_mine w k x : Inv w -> Inv (set_mine k x w).
Proof. intros I. split; apply I. Qed.

(* the tests *)
Lemma checked_ask w i s : Inv w -> 
  checked i s w = match cvars w i with
                  | None => None
                  | Some _ => match ask s (content w i) with
                              | Mismatch => Some None
                              | Gives x => Some (Some (serial x))
                              | WrongClass => None
                              end
                  end.
Proof.
  intros I. unfold checked. rewrite content_val. destruct (cvars w i) as [[a|]|] eqn:E; try reflexivity.
  destruct (inv_live w I _ _ E) as (u & v & H). cbn. rewrite H. cbn. unfold typeid.
  destruct (tbase s =? tbase u); [|reflexivity]. destruct (same_class s u); reflexivity.
Qed.

Lemma ask_gives (w : cworld V) i s (x : item V) : ask s (content w i) = Gives x ->
  content w i = Some (Some x) /\ cvars w i = Some (Some (serial x)) /\ cheap w (serial x) = Some (ity x, ival x) /\
  same_class s (ity x) = true.
Proof.
  rewrite content_val. destruct (cvars w i) as [[a|]|] eqn:E; cbn; try discriminate.
  destruct (cheap w a) as [[u v]|] eqn:H; cbn; try discriminate.
  destruct (tbase s =? tbase u); [|discriminate]. destruct (same_class s u) eqn:C; [|discriminate].
  intros [= <-]. cbn. auto.
Qed.

Lemma same_class_base s u : same_class s u = true -> tbase s =? tbase u = true.
Proof. unfold same_class. rewrite !andb_true_iff. tauto. Qed.

Lemma unchecked_ask w i s : Inv w ->
  unchecked i s w = match ask s (content w i) with Gives x => Some (serial x) | _ => None end.
Proof.
  intros I. unfold unchecked. rewrite content_val. destruct (cvars w i) as [[a|]|] eqn:E; try reflexivity.
  destruct (inv_live w I _ _ E) as (u & v & H). cbn. rewrite H. cbn.
  destruct (same_class s u) eqn:C.
  - now rewrite (same_class_base _ _ C).
  - destruct (tbase s =? tbase u); reflexivity.
Qed.

Lemma is_type_content (w : cworld V) i s : Inv w ->
  CastModel.is_type i s w = match content w i with
                  | None => None
                  | Some None => Some false
                  | Some (Some y) => Some (tbase (ity y) =? tbase s)
                  end.
Proof.
  intros I. unfold CastModel.is_type. rewrite content_val. destruct (cvars w i) as [[a|]|] eqn:E; try reflexivity.
  destruct (inv_live w I _ _ E) as (u & v & H). cbn. rewrite H. reflexivity.
Qed.

Lemma look_shows w p s v : Inv w -> look p w = Some (s, v) <-> shows (content w) (mine w) p s v.
Proof.
  intros I. destruct p as [a|k|]; cbn.
  - split.
    + intros H. destruct (inv_owned w I _ _ H) as (i & E). exists (MkItem a s v). repeat split.
      exists i. rewrite content_val, E. cbn. now rewrite H.
    + intros (x & (i & H) & <- & <- & <-). rewrite content_val in H.
      destruct (cvars w i) as [[b|]|]; cbn in H; try discriminate.
      destruct (cheap w b) as [[u y]|] eqn:E; [|discriminate]. injection H as <-. exact E.
  - split; congruence.
  - split; [discriminate | tauto].
Qed.

Definition fresh (n : nat) (w : cworld V) : Prop :=
  (forall i x, content w i = Some (Some x) -> serial x <> n) /\ (forall q, refs w q <> Some (Payload n)).

Lemma fresh_next w : Inv w -> fresh (cnext w) w.
Proof.
  intros I. split.
  - intros i x. rewrite content_val. destruct (cvars w i) as [[a|]|] eqn:E; cbn; try discriminate.
    destruct (cheap w a) as [[u v]|]; [|discriminate]. intros [= <-]. cbn. pose proof (inv_below w i a I E). lia.
  - intros q H. pose proof (inv_refs w I q _ H). lia.
Qed.

Definition good (o : cop V) (w : cworld V) (x : seen V) (w' : cworld V) : Prop :=
  allowed o (content w) (mine w) (refs w) /\
  result copyable o (content w) (mine w) (refs w) x /\
  (forall i, content w' i = after husk o (cnext w) (refs w) x (content w) i) /\
  (forall q, refs w' q = rebound o (content w) (mine w) (refs w) q) /\
  (forall k, mine w' k = mine_after husk o (refs w) (mine w) k).

Definition fine (o : cop V) (w : cworld V) : Prop :=
  match step o w with
  | Undefined => ~ allowed o (content w) (mine w) (refs w)
  | Ok x w' => good o w x w' /\ Inv w'
  end.

Lemma there w i p : Inv w -> cvars w i = Some p -> is_there (content w i).
Proof. intros I H E. apply (content_none w i I) in E. congruence. Qed.
Lemma absent w i : Inv w -> cvars w i = None -> content w i = None.
Proof. intros I H. now apply content_none. Qed.

(* content after putting a pointer *)
Lemma content_set w i p k : content (set_any i p w) k = if k =? i then val (cheap w) p else content w k.
Proof. unfold content. cbn. unfold put. destruct (k =? i); reflexivity. Qed.

Lemma content_make w s v i : Inv w -> content (snd (make s v w)) i = content w i.
Proof.
  intros I. rewrite !content_val. cbn. apply val_put. intros E. pose proof (inv_below w i _ I E). lia.
Qed.

Lemma content_make_set w s v i k : Inv w ->
  content (set_any i (Some (Some (cnext w))) (snd (make s v w))) k = put (content w) i (Some (Some (MkItem (cnext w) s v))) k.
Proof.
  intros I. rewrite content_set. unfold put at 1. destruct (k =? i).
  - cbn. now rewrite put_same.
  - now apply content_make.
Qed.

(* what is given up is not in another any *)
Lemma content_free w i old p k : Inv w -> cvars w i = Some old -> p = None \/ p = Some None ->
  content (free old (set_any i p w)) k = put (content w) i (val (cheap w) p) k.
Proof.
  intros I O P. unfold put. destruct (Nat.eqb_spec k i) as [-> |N].
  - rewrite content_val. destruct old; cbn; rewrite put_same; destruct P as [-> | ->]; reflexivity.
  - rewrite !content_val. destruct old as [a|]; cbn; rewrite put_other by exact N; [|reflexivity].
    apply val_put. intros K. destruct N. exact (inv_one w I k i a K O).
Qed.

Lemma content_replace w i old s v k : Inv w -> cvars w i = Some old ->
  content (free old (set_any i (Some (Some (cnext w))) (snd (make s v w)))) k =
  put (content w) i (Some (Some (MkItem (cnext w) s v))) k.
Proof.
  intros I O. unfold put. destruct (Nat.eqb_spec k i) as [-> |N].
  - rewrite content_val. destruct old as [a|]; cbn; rewrite put_same; cbn.
    + pose proof (inv_below w i a I O). rewrite put_other by lia. now rewrite put_same.
    + now rewrite put_same.
  - rewrite !content_val. destruct old as [a|]; cbn; rewrite put_other by exact N.
    + rewrite val_put by (intros K; destruct N; exact (inv_one w I k i a K O)).
      apply val_put. intros K. pose proof (inv_below w k _ I K). lia.
    + apply val_put. intros K. pose proof (inv_below w k _ I K). lia.
Qed.

(* a payload gets another value *)
Lemma content_value w a s v v' k : Inv w -> cheap w a = Some (s, v) ->
  content (set_heap a (Some (s, v')) w) k =
  match content w k with
  | Some (Some y) => if serial y =? a then Some (Some (MkItem a s v')) else content w k
  | c => c
  end.
Proof.
  intros I H. rewrite !content_val. cbn. destruct (cvars w k) as [[b|]|] eqn:E; cbn; try reflexivity.
  unfold put. destruct (Nat.eqb_spec b a) as [-> |N].
  - rewrite H. cbn. now rewrite Nat.eqb_refl.
  - destruct (inv_live w I _ _ E) as (u & y & ->). cbn. apply Nat.eqb_neq in N. now rewrite N.
Qed.

Lemma frees (w : cworld V) old : refs (free old w) = refs w /\ mine (free old w) = mine w.
Proof. destruct old; auto. Qed.

Ltac same := repeat split; auto; try (intros; rewrite ?(proj1 (frees _ _)), ?(proj2 (frees _ _)); reflexivity).

Lemma fine_news w o : Inv w ->
  (exists i, o = NewEmpty i) \/ (exists i s v, o = NewValue i s v) \/ (exists i s v, o = NewInPlace i s v) -> fine o w.
Proof.
  intros I [(i & ->) | [(i & s & v & ->) | (i & s & v & ->)]]; unfold fine; cbn [cstep];
    destruct (cvars w i) as [p|] eqn:E; try (cbn; intros A; exact (there w i p I E A)).
  - split; [|exact (inv_new w i None _ I E eq_refl eq_refl)].
    unfold good. cbn. split; [exact (absent w i I E)|]. same. intros k. rewrite content_set. reflexivity.
  - cbn [make]. split; [|exact (inv_make_new w i _ v I E)].
    unfold good. cbn [allowed result after rebound mine_after]. split; [exact (absent w i I E)|]. same.
    intros k. apply (content_make_set w (decay s) v i k I).
  - cbn [make]. split; [|exact (inv_make_new w i _ v I E)].
    unfold good. cbn [allowed result after rebound mine_after]. split; [exact (absent w i I E)|]. same.
    intros k. apply (content_make_set w s v i k I).
Qed.

Lemma clonable_can s : clonable copyable s = can_copy copyable s.
Proof. unfold clonable, can_copy. apply andb_comm. Qed.

Lemma fine_copies w o : Inv w -> (exists i j, o = NewCopy i j) \/ (exists i j, o = CopyAssign i j) -> fine o w.
Proof.
  intros I [(i & j & ->) | (i & j & ->)]; unfold fine; cbn [cstep].
  - destruct (cvars w i) as [p|] eqn:E.
    { intros (A & _). exact (there w i p I E A). }
    destruct (cvars w j) as [p|] eqn:F.
    2:{ intros (_ & A). exact (A (absent w j I F)). }
    assert (T := there w j p I F). assert (N := absent w i I E).
    destruct p as [a|]; cbn [copied].
    + destruct (inv_live w I j a F) as (s & v & H). rewrite H.
      assert (C : content w j = Some (Some (MkItem a s v))) by (rewrite content_val, F; cbn; now rewrite H).
      rewrite clonable_can. destruct (can_copy copyable s) eqn:K.
      * split; [|exact (inv_make_new w i _ v I E)].
        unfold good. cbn [allowed result after rebound mine_after went]. rewrite C. cbn [ity ival renew]. rewrite K.
        split; [split; [exact N | rewrite <- C; exact T]|]. same.
        intros k. apply (content_make_set w s v i k I).
      * split; [|exact I]. unfold good. cbn [allowed result after rebound mine_after went]. rewrite C. cbn [ity]. rewrite K.
        split; [split; [exact N | rewrite <- C; exact T]|]. same.
    + assert (C : content w j = Some None) by (rewrite content_val, F; reflexivity).
      split; [|exact (inv_new w i None _ I E eq_refl eq_refl)].
      unfold good. cbn [allowed result after rebound mine_after went]. rewrite C. cbn [renew].
      split; [split; [exact N | rewrite <- C; exact T]|]. same. intros k. rewrite content_set. reflexivity.
  - destruct (cvars w i) as [old|] eqn:E.
    2:{ intros (A & _). exact (A (absent w i I E)). }
    destruct (cvars w j) as [p|] eqn:F.
    2:{ intros (_ & A). exact (A (absent w j I F)). }
    assert (T := there w j p I F). assert (N := there w i old I E).
    destruct p as [a|]; cbn [copied].
    + destruct (inv_live w I j a F) as (s & v & H). rewrite H.
      assert (C : content w j = Some (Some (MkItem a s v))) by (rewrite content_val, F; cbn; now rewrite H).
      rewrite clonable_can. destruct (can_copy copyable s) eqn:K.
      * unfold replace. change (cvars (snd (make s v w)) i) with (cvars w i). rewrite E.
        split; [|apply (inv_make w i s v I); [congruence|exact E]].
        unfold good. cbn [allowed result after rebound mine_after went]. rewrite C. cbn [ity ival renew]. rewrite K.
        split; [split; [exact N | rewrite <- C; exact T]|]. same.
        intros k. apply (content_replace w i old s v k I E).
      * split; [|exact I]. unfold good. cbn [allowed result after rebound mine_after went]. rewrite C. cbn [ity]. rewrite K.
        split; [split; [exact N | rewrite <- C; exact T]|]. same.
    + assert (C : content w j = Some None) by (rewrite content_val, F; reflexivity).
      unfold replace. rewrite E. split; [|apply (inv_free w i old); auto].
      unfold good. cbn [allowed result after rebound mine_after went]. rewrite C. cbn [renew].
      split; [split; [exact N | rewrite <- C; exact T]|]. same.
      intros k. apply (content_free w i old); auto.
Qed.

Lemma fine_moves w o : Inv w ->
  (exists i j, o = NewMove i j) \/ (exists i j, o = Swap i j) \/ (exists i j, o = MoveAssign i j) -> fine o w.
Proof.
  intros I [(i & j & ->) | [(i & j & ->) | (i & j & ->)]]; unfold fine; cbn [cstep].
  - destruct (cvars w i) as [p|] eqn:E.
    { intros (A & _). exact (there w i p I E A). }
    destruct (cvars w j) as [p|] eqn:F.
    2:{ intros (_ & A). exact (A (absent w j I F)). }
    assert (NE : j <> i) by congruence.
    assert (J := inv_new w i None _ I E eq_refl eq_refl).
    assert (K : Inv (set_any i (Some p) (set_any j (Some None) (set_any i (Some None) w)))).
    { apply (inv_swap _ i j None p J); cbn; [apply put_same | rewrite put_other; assumption]. }
    split.
    + unfold good. cbn [allowed result after rebound mine_after].
      split; [split; [exact (absent w i I E) | exact (there w j p I F)]|]. same.
      intros k. rewrite !content_set. unfold put. destruct (k =? i); [|destruct (k =? j); reflexivity].
      rewrite content_val, F. reflexivity.
    + assert (H : forall k, cvars (set_any i (Some p) (set_any j (Some None) w)) k =
                            cvars (set_any i (Some p) (set_any j (Some None) (set_any i (Some None) w))) k).
      { intros k. cbn. unfold put. destruct (k =? i); [reflexivity|]. destruct (k =? j); reflexivity. }
      split.
      * intros k a A. rewrite H in A. exact (inv_live _ K k a A).
      * intros k l a A B. rewrite H in A, B. exact (inv_one _ K k l a A B).
      * apply (inv_next _ K).
      * intros a h A. destruct (inv_owned _ K a h A) as (k & B). exists k. now rewrite H.
      * apply (inv_refs _ K).
  - destruct (cvars w i) as [p|] eqn:E.
    2:{ intros (A & _). exact (A (absent w i I E)). }
    destruct (cvars w j) as [q|] eqn:F.
    2:{ intros (_ & A). exact (A (absent w j I F)). }
    split; [|apply (inv_swap w i j p q I E F)].
    unfold good. cbn [allowed result after rebound mine_after].
    split; [split; [exact (there w i p I E) | exact (there w j q I F)]|]. same.
    intros k. rewrite !content_set. unfold put. rewrite !content_val, E, F. reflexivity.
  - destruct (cvars w i) as [p|] eqn:E.
    2:{ intros (A & _). exact (A (absent w i I E)). }
    destruct (cvars w j) as [q|] eqn:F.
    2:{ intros (_ & A). exact (A (absent w j I F)). }
    unfold replace. cbn [cvars set_any]. rewrite put_same.
    set (u := set_any j (Some p) (set_any i (Some q) w)).
    assert (U : Inv u) by exact (inv_swap w j i q p I F E).
    assert (UJ : cvars u j = Some p) by (unfold u; cbn; apply put_same).
    split; [|apply (inv_free u j p (Some None) U UJ); auto].
    unfold good. cbn [allowed result after rebound mine_after].
    split; [split; [exact (there w i p I E) | exact (there w j q I F)]|]. same.
    intros k. rewrite (content_free u j p (Some None) k U UJ) by auto.
    unfold u. unfold put at 1. rewrite !content_set. destruct (Nat.eqb_spec i j) as [-> |N].
    + unfold put. destruct (k =? j); reflexivity.
    + unfold put. destruct (Nat.eqb_spec k j) as [-> |M].
      * destruct (Nat.eqb_spec j i); [congruence|reflexivity].
      * destruct (k =? i); [|reflexivity]. rewrite content_val, F. reflexivity.
Qed.

Lemma fine_sets w o : Inv w ->
  (exists i, o = Delete i) \/ (exists i, o = Clear i) \/ (exists i s v, o = AssignValue i s v) \/ (exists i s v, o = Emplace i s v) ->
  fine o w.
Proof.
  intros I [(i & ->) | [(i & ->) | [(i & s & v & ->) | (i & s & v & ->)]]]; unfold fine; cbn [cstep make]; unfold replace.
  - destruct (cvars w i) as [p|] eqn:E; [|intros A; exact (A (absent w i I E))].
    split; [|apply (inv_free w i p _ I E); auto].
    unfold good. cbn [allowed result after rebound mine_after]. split; [exact (there w i p I E)|]. same.
    intros k. apply (content_free w i p); auto.
  - destruct (cvars w i) as [p|] eqn:E; [|intros A; exact (A (absent w i I E))].
    split; [|apply (inv_free w i p _ I E); auto].
    unfold good. cbn [allowed result after rebound mine_after]. split; [exact (there w i p I E)|]. same.
    intros k. apply (content_free w i p); auto.
  - cbn [cvars]. destruct (cvars w i) as [p|] eqn:E; [|intros A; exact (A (absent w i I E))].
    split; [|exact (inv_make w i (decay s) v I ltac:(congruence) p E)].
    unfold good. cbn [allowed result after rebound mine_after]. split; [exact (there w i p I E)|]. same.
    intros k. apply (content_replace w i p (decay s) v k I E).
  - cbn [cvars]. destruct (cvars w i) as [p|] eqn:E; [|intros A; exact (A (absent w i I E))].
    split; [|exact (inv_make w i s v I ltac:(congruence) p E)].
    unfold good. cbn [allowed result after rebound mine_after]. split; [exact (there w i p I E)|]. same.
    intros k. apply (content_replace w i p s v k I E).
Qed.

Lemma there_content (w : cworld V) i : is_there (content w i) -> exists p, cvars w i = Some p.
Proof. intros T. destruct (cvars w i) as [p|] eqn:E; [eauto|]. destruct T. rewrite content_val, E. reflexivity. Qed.

Lemma gives_there (w : cworld V) i s (x : item V) : ask s (content w i) = Gives x -> is_there (content w i).
Proof. intros H. destruct (ask_gives w i s x H) as (-> & _). discriminate. Qed.

Lemma gives_below w i s (x : item V) : Inv w -> ask s (content w i) = Gives x -> serial x < cnext w.
Proof. intros I H. destruct (ask_gives w i s x H) as (_ & E & _). exact (inv_below w i _ I E). Qed.

Lemma is_type_ask (w : cworld V) i s : Inv w ->
  CastModel.is_type i s w = match cvars w i with
                            | None => None
                            | Some _ => Some (match ask s (content w i) with Mismatch => false | _ => true end)
                            end.
Proof.
  intros I. unfold CastModel.is_type. rewrite content_val. destruct (cvars w i) as [[a|]|] eqn:E; try reflexivity.
  destruct (inv_live w I _ _ E) as (u & v & H). cbn. rewrite H. cbn. unfold typeid. rewrite Nat.eqb_sym.
  destruct (tbase s =? tbase u); [|reflexivity]. destruct (same_class s u); reflexivity.
Qed.

Lemma fine_asks w o : Inv w ->
  (exists i, o = Empty i) \/ (exists i s, o = IsType i s) \/ (exists i s, o = GetOpt i s) \/ (exists i s c, o = AnyCast i s c) ->
  fine o w.
Proof.
  intros I [(i & ->) | [(i & s & ->) | [(i & s & ->) | (i & s & c & ->)]]]; unfold fine; cbn [cstep].
  - destruct (cvars w i) as [p|] eqn:E; [|intros A; exact (A (absent w i I E))].
    split; [|exact I]. unfold good. cbn [allowed result after rebound mine_after].
    split; [exact (there w i p I E)|]. same. rewrite content_val, E.
    destruct p as [a|]; [|reflexivity]. destruct (inv_live w I i a E) as (u & v & H). cbn. now rewrite H.
  - rewrite (is_type_content w i s I). destruct (content w i) as [[y|]|] eqn:C.
    + split; [|exact I]. unfold good. cbn [allowed result after rebound mine_after]. rewrite C. split; [discriminate|]. same.
    + split; [|exact I]. unfold good. cbn [allowed result after rebound mine_after]. rewrite C. split; [discriminate|]. same.
    + cbn. intros A. exact (A C).
  - rewrite (is_type_ask w i s I), (unchecked_ask w i s I).
    destruct (cvars w i) as [p|] eqn:E; [|intros (A & _); exact (A (absent w i I E))].
    assert (T := there w i p I E).
    destruct (ask s (content w i)) as [|x|] eqn:A.
    + split; [|exact I]. unfold good. cbn [allowed result after rebound mine_after]. rewrite A.
      split; [split; [exact T | discriminate]|]. same.
    + destruct (ask_gives w i s x A) as (_ & _ & H & _). rewrite H.
      split; [|exact I]. unfold good. cbn [allowed result after rebound mine_after]. rewrite A.
      split; [split; [exact T | discriminate]|]. same.
    + intros (_ & B). exact (B A).
  - rewrite (checked_ask w i s I).
    destruct (cvars w i) as [p|] eqn:E; [|intros (A & _); exact (A (absent w i I E))].
    assert (T := there w i p I E).
    destruct (ask s (content w i)) as [|x|] eqn:A.
    + split; [|exact I]. unfold good. cbn [allowed result after rebound mine_after]. rewrite A.
      split; [split; [exact T | discriminate]|]. same.
    + destruct (ask_gives w i s x A) as (_ & _ & H & _). rewrite H.
      split; [|exact I]. unfold good. cbn [allowed result after rebound mine_after]. rewrite A.
      split; [split; [exact T | discriminate]|]. same.
    + intros (_ & B). exact (B A).
Qed.

Lemma asked_model (o : sty) c : MkTy (negb c && tconst o) false (tbase o) = asked o c.
Proof. destruct c; reflexivity. Qed.

Lemma fine_gets w o : Inv w ->
  (exists r i s, o = Get r i s) \/ (exists r i k c, o = GetOr r i k c) \/ (exists r i t v, o = GetOrTemp r i t v) \/
  (exists r i s, o = GetUnsafe r i s) -> fine o w.
Proof.
  intros I [(r & i & s & ->) | [(r & i & k & c & ->) | [(r & i & t & v & ->) | (r & i & s & ->)]]]; unfold fine; cbn [cstep];
    rewrite ?asked_model, ?(checked_ask w i _ I), ?(unchecked_ask w i _ I).
  - destruct (cvars w i) as [p|] eqn:E; [|intros (A & _); exact (A (absent w i I E))].
    assert (T := there w i p I E).
    destruct (ask s (content w i)) as [|x|] eqn:A.
    + split; [|exact I]. unfold good. cbn [allowed result after rebound mine_after]. rewrite A.
      split; [split; [exact T | discriminate]|]. same.
    + split; [|apply (inv_ref w r _ I); intros a [= <-]; exact (gives_below w i s x I A)].
      unfold good. cbn [allowed result after rebound mine_after]. rewrite A.
      split; [split; [exact T | discriminate]|]. same.
    + intros (_ & B). exact (B A).
  - destruct (cvars w i) as [p|] eqn:E; [|intros (A & _); exact (A (absent w i I E))].
    assert (T := there w i p I E).
    destruct (ask (asked (fst (mine w k)) c) (content w i)) as [|x|] eqn:A.
    + split; [|apply (inv_ref w r _ I); discriminate].
      unfold good. cbn [allowed result after rebound mine_after]. rewrite A.
      split; [split; [exact T | discriminate]|]. same.
    + split; [|apply (inv_ref w r _ I); intros a [= <-]; exact (gives_below w i _ x I A)].
      unfold good. cbn [allowed result after rebound mine_after]. rewrite A.
      split; [split; [exact T | discriminate]|]. same.
    + intros (_ & B). exact (B A).
  - destruct (cvars w i) as [p|] eqn:E; [|intros (A & _); exact (A (absent w i I E))].
    assert (T := there w i p I E).
    destruct (ask (plain t) (content w i)) as [|x|] eqn:A.
    + split; [|apply (inv_ref w r _ I); discriminate].
      unfold good. cbn [allowed result after rebound mine_after]. rewrite A.
      split; [split; [exact T | discriminate]|]. same.
    + destruct (ask_gives w i _ x A) as (_ & _ & H & _). rewrite H.
      split; [|apply (inv_ref w r _ I); intros a [= <-]; exact (gives_below w i _ x I A)].
      unfold good. cbn [allowed result after rebound mine_after]. rewrite A.
      split; [split; [exact T | discriminate]|]. same.
    + intros (_ & B). exact (B A).
  - destruct (ask s (content w i)) as [|x|] eqn:A.
    + intros (x & B). cbn in B. rewrite A in B. discriminate.
    + split; [|apply (inv_ref w r _ I); intros a [= <-]; exact (gives_below w i _ x I A)].
      unfold good. cbn [allowed result after rebound mine_after]. rewrite A. split; [eauto|]. same.
    + intros (x & B). cbn in B. rewrite A in B. discriminate.
Qed.

Lemma content_item (w : cworld V) i (x : item V) : content w i = Some (Some x) ->
  cvars w i = Some (Some (serial x)) /\ cheap w (serial x) = Some (ity x, ival x).
Proof.
  rewrite content_val. destruct (cvars w i) as [[a|]|]; cbn; try discriminate.
  destruct (cheap w a) as [[u v]|] eqn:H; [|discriminate]. intros [= <-]. auto.
Qed.

Lemma content_same (w : cworld V) i j (x y : item V) : Inv w ->
  content w i = Some (Some x) -> content w j = Some (Some y) -> serial x = serial y -> i = j /\ x = y.
Proof.
  intros I A B S. destruct (content_item w i x A) as (P & H), (content_item w j y B) as (Q & K).
  rewrite <- S in Q, K. split; [exact (inv_one w I i j _ P Q)|].
  rewrite H in K. injection K as K1 K2. destruct x, y; cbn in *; congruence.
Qed.

Lemma fine_take w i s c : Inv w -> fine (TakeUnsafe i s c) w.
Proof.
  intros I. unfold fine. cbn [cstep]. rewrite (unchecked_ask w i s I).
  destruct (ask s (content w i)) as [|x|] eqn:A; [intros (x & B); cbn in B; congruence| |intros (x & B); cbn in B; congruence].
  destruct (ask_gives w i s x A) as (C & E & H & _). rewrite H.
  destruct (c || tconst (ity x)) eqn:O.
  - split; [|exact I]. unfold good. cbn [allowed result after rebound mine_after].
    split; [eauto|]. split; [eauto|]. same. intros k. destruct c; [reflexivity|]. cbn in O.
    unfold put. destruct (Nat.eqb_spec k i) as [-> |]; [|reflexivity]. rewrite C. cbn. unfold lose. rewrite O.
    destruct x; reflexivity.
  - apply orb_false_iff in O. destruct O as (-> & O). split; [|exact (inv_value w _ _ _ _ _ I H)].
    unfold good. cbn [allowed result after rebound mine_after].
    split; [eauto|]. split; [eauto|]. same. intros k. rewrite (content_value w _ _ _ _ k I H).
    unfold put. destruct (Nat.eqb_spec k i) as [-> |N].
    + rewrite C. rewrite Nat.eqb_refl. cbn. unfold lose. now rewrite O.
    + destruct (content w k) as [[y|]|] eqn:K; try reflexivity.
      destruct (Nat.eqb_spec (serial y) (serial x)) as [S|]; [|reflexivity].
      destruct N. exact (proj1 (content_same w k i y x I K C S)).
Qed.

Lemma fine_read w r : Inv w -> fine (Read r) w.
Proof.
  intros I. unfold fine. cbn [cstep]. destruct (refs w r) as [p|] eqn:R.
  2:{ intros (p & s & v & A & _). congruence. }
  destruct (look p w) as [[s v]|] eqn:L.
  - apply (look_shows w p s v I) in L. split; [|exact I]. unfold good. cbn [allowed result after rebound mine_after].
    split; [eauto 6|]. split; [eauto 8|]. same.
  - intros (p' & s & v & A & B). rewrite R in A. injection A as <-. apply (look_shows w p s v I) in B. congruence.
Qed.

Lemma fine_write w r v : Inv w -> fine (Write r v) w.
Proof.
  intros I. unfold fine. cbn [cstep]. destruct (refs w r) as [p|] eqn:R.
  2:{ intros (p & s & y & A & _). congruence. }
  destruct (look p w) as [[s y]|] eqn:L.
  2:{ intros (p' & s & y & A & B & _). rewrite R in A. injection A as <-. apply (look_shows w p s y I) in B. congruence. }
  destruct (tconst s) eqn:T.
  { intros (p' & s' & y' & A & B & C). rewrite R in A. injection A as <-. apply (look_shows w p s' y' I) in B. congruence. }
  pose proof L as L'. apply (look_shows w p s y I) in L'.
  destruct p as [a|k|]; cbn [look] in L; [| |discriminate].
  - split; [|exact (inv_value w _ _ _ _ _ I L)].
    unfold good. cbn [allowed result after rebound mine_after store]. rewrite R. cbn [through].
    split; [eauto 8|]. same. intros i. rewrite (content_value w a s y v i I L).
    destruct (content w i) as [[x|]|] eqn:C; cbn; try reflexivity.
    destruct (Nat.eqb_spec (serial x) a) as [<- |]; [|reflexivity].
    destruct (content_item w i x C) as (_ & H). rewrite L in H. congruence.
  - split; [|apply (inv_mine w _ _ I)].
    unfold good. cbn [allowed result after rebound mine_after store]. rewrite R. cbn [through].
    split; [eauto 8|]. injection L as L. same. intros j. cbn. unfold put. rewrite L. reflexivity.
Qed.

Lemma fine_out w r : Inv w -> fine (MoveOut r) w.
Proof.
  intros I. unfold fine. cbn [cstep]. destruct (refs w r) as [p|] eqn:R.
  2:{ intros (p & s & y & A & _). congruence. }
  destruct (look p w) as [[s y]|] eqn:L.
  2:{ intros (p' & s & y & A & B). rewrite R in A. injection A as <-. apply (look_shows w p s y I) in B. congruence. }
  pose proof L as L'. apply (look_shows w p s y I) in L'.
  destruct (tconst s) eqn:T.
  - split; [|exact I]. unfold good. cbn [allowed result after rebound mine_after]. rewrite R.
    split; [eauto 8|]. split; [eauto 8|]. split; [|split; [reflexivity|]].
    + intros i. destruct p as [a|k|]; try reflexivity. destruct (content w i) as [[x|]|] eqn:C; try reflexivity.
      destruct (Nat.eqb_spec (serial x) a) as [<- |]; [|reflexivity]. destruct (content_item w i x C) as (_ & H).
      cbn in L. rewrite L in H. injection H as -> ->. cbn. unfold lose. rewrite T. now destruct x.
    + intros k. destruct p as [a|j|]; try reflexivity. cbn in L. injection L as L. unfold put.
      destruct (Nat.eqb_spec k j) as [-> |]; [|reflexivity]. rewrite L. cbn. unfold lose. now rewrite T.
  - destruct p as [a|k|]; cbn [look] in L; [| |discriminate].
    + split; [|exact (inv_value w _ _ _ _ _ I L)].
      unfold good. cbn [allowed result after rebound mine_after store]. rewrite R.
      split; [eauto 8|]. split; [eauto 8|]. same. intros i. rewrite (content_value w a s y _ i I L).
      destruct (content w i) as [[x|]|] eqn:C; try reflexivity.
      destruct (Nat.eqb_spec (serial x) a) as [<- |]; [|reflexivity].
      destruct (content_item w i x C) as (_ & H). rewrite L in H. injection H as -> ->. cbn. unfold lose. now rewrite T.
    + split; [|apply (inv_mine w _ _ I)].
      unfold good. cbn [allowed result after rebound mine_after store]. rewrite R.
      split; [eauto 8|]. split; [eauto 8|]. injection L as L. same. intros j. cbn. unfold put. rewrite L. cbn.
      unfold lose. now rewrite T.
Qed.

Theorem step_fine w o : Inv w -> fine o w.
Proof.
  intros I. destruct o.
  - apply fine_news; eauto.
  - apply fine_news; eauto 8.
  - apply fine_news; eauto 8.
  - apply fine_copies; eauto 8.
  - apply fine_moves; eauto 8.
  - apply fine_sets; eauto 8.
  - apply fine_moves; eauto 8.
  - apply fine_copies; eauto 8.
  - apply fine_moves; eauto 8.
  - apply fine_sets; eauto 9.
  - apply fine_sets; eauto 9.
  - apply fine_sets; eauto 8.
  - apply fine_asks; eauto 8.
  - apply fine_asks; eauto 8.
  - apply fine_gets; eauto 8.
  - apply fine_gets; eauto 9.
  - apply fine_gets; eauto 9.
  - apply fine_gets; eauto 9.
  - now apply fine_take.
  - apply fine_asks; eauto 8.
  - apply fine_asks; eauto 9.
  - now apply fine_read.
  - now apply fine_write.
  - now apply fine_out.
Qed.

Lemma step_inv w o x w' : Inv w -> step o w = Ok x w' -> Inv w'.
Proof. intros I E. pose proof (step_fine w o I) as F. unfold fine in F. rewrite E in F. tauto. Qed.

Lemma run_inv l : forall w xs w', Inv w -> run l w = Some (xs, w') -> Inv w'.
Proof.
  induction l as [|o l IH]; intros w xs w' I H; cbn in H.
  - injection H as _ <-. exact I.
  - destruct (step o w) as [x u|] eqn:E; [|discriminate].
    destruct (run l u) as [[ys u']|] eqn:R; [|discriminate]. injection H as _ <-.
    exact (IH u ys u' (step_inv w o x u I E) R).
Qed.

Lemma reachable_inv m w : reachable copyable husk m w -> Inv w.
Proof. intros (l & xs & H). exact (run_inv l _ _ _ (inv_start m) H). Qed.

(* what an item was before a call *)
Lemma after_old w o x w' k y : Inv w -> step o w = Ok x w' -> content w' k = Some (Some y) ->
  serial y = cnext w \/ exists k0 y0, content w k0 = Some (Some y0) /\ serial y0 = serial y.
Proof.
  intros I E C. pose proof (step_fine w o I) as F. unfold fine in F. rewrite E in F.
  destruct F as ((_ & _ & A & _) & _). rewrite A in C. clear A E.
  destruct o; cbn in C; unfold put, renew, through, revalue, spent in C;
    repeat match type of C with
      | context[if ?b then _ else _] => destruct b eqn:?
      | context[match content w ?j with _ => _ end] => let K := fresh "K" in destruct (content w j) as [[?|]|] eqn:K
      | context[match refs w ?j with _ => _ end] => destruct (refs w j) as [[?|?|]|]
      end;
    try discriminate; try (injection C as <-); cbn; eauto 6.
  right. exists k, i. split; [exact K|]. now apply Nat.eqb_eq.
Qed.

Lemma copied_next p (w w' : cworld V) q : copied copyable p w = Some (Some (q, w')) -> cnext w <= cnext w'.
Proof.
  unfold copied. destruct p as [a|]; [|intros [= _ <-]; lia].
  destruct (cheap w a) as [[s v]|]; [|discriminate]. destruct (clonable copyable s); [|discriminate].
  intros [= _ <-]. cbn. lia.
Qed.

Lemma next_mono w o x w' : step o w = Ok x w' -> cnext w <= cnext w'.
Proof.
  intros H. assert (F : forall p (u : cworld V), cnext (free p u) = cnext u) by (intros [?|] u; reflexivity).
  assert (ST : forall p y (u : cworld V), cnext (store p y u) = cnext u) by (intros [?|?|] y u; reflexivity).
  destruct o; cbn in H; unfold replace in H;
    repeat match type of H with
      | context[match ?b with _ => _ end] => destruct b eqn:?
      end; try discriminate; injection H as _ <-; rewrite ?F, ?ST; cbn; try lia;
    eapply copied_next; eassumption.
Qed.

Lemma run_next l : forall w xs w', run l w = Some (xs, w') -> cnext w <= cnext w'.
Proof.
  induction l as [|o l IH]; intros w xs w' H; cbn in H; [injection H as _ <-; lia|].
  destruct (step o w) as [x u|] eqn:E; [|discriminate].
  destruct (run l u) as [[ys u']|] eqn:R; [|discriminate]. injection H as _ <-.
  pose proof (next_mono w o x u E). pose proof (IH _ _ _ R). lia.
Qed.

Definition nowhere (n : nat) (w : cworld V) : Prop := forall k y, content w k = Some (Some y) -> serial y <> n.

Lemma nowhere_stays w o x w' n : Inv w -> n < cnext w -> nowhere n w -> step o w = Ok x w' -> nowhere n w'.
Proof.
  intros I L N E k y C S. destruct (after_old w o x w' k y I E C) as [D | (k0 & y0 & D & D')]; [lia|].
  apply (N k0 y0 D). congruence.
Qed.

Lemma nowhere_run n l : forall w xs w', Inv w -> n < cnext w -> nowhere n w -> run l w = Some (xs, w') -> nowhere n w'.
Proof.
  induction l as [|o l IH]; intros w xs w' I L N H; cbn in H; [injection H as _ <-; exact N|].
  destruct (step o w) as [x u|] eqn:E; [|discriminate].
  destruct (run l u) as [[ys u']|] eqn:R; [|discriminate]. injection H as _ <-.
  refine (IH u ys u' (step_inv w o x u I E) _ (nowhere_stays w o x u n I L N E) R).
  pose proof (next_mono w o x u E). lia.
Qed.

Lemma follow_step w o x w' i y : Inv w -> step o w = Ok x w' -> content w i = Some (Some y) ->
  match follow i o x with
  | Some j => exists y', content w' j = Some (Some y') /\ serial y' = serial y /\ ity y' = ity y
  | None => nowhere (serial y) w'
  end.
Proof.
  intros I E C. pose proof (step_fine w o I) as F. unfold fine in F. rewrite E in F.
  destruct F as ((AL & _ & A & _) & _).
  assert (FR := proj1 (fresh_next w I) i y C).
  assert (U : forall k z, content w k = Some (Some z) -> serial z = serial y -> k = i)
    by (intros k z K S; exact (proj1 (content_same w k i z y I K C S))).
  assert (NW : forall d, (forall k, content w' k = put (content w) i d k) ->
               (forall z, d = Some (Some z) -> serial z <> serial y) -> nowhere (serial y) w').
  { intros d D Z k z K S. rewrite D in K. unfold put in K. destruct (Nat.eqb_spec k i).
    - exact (Z z K S).
    - apply n. exact (U k z K S). }
  clear E.
  assert (ST : forall c, after husk o (cnext w) (refs w) x (content w) i = c -> c = Some (Some y) ->
     exists y', content w' i = Some (Some y') /\ serial y' = serial y /\ ity y' = ity y).
  { intros c Q ->. rewrite A, Q. eauto. }
  destruct o as [k|k s v|k s v|k j|k j|k|k j|k j|k j|k s v|k s v|k|k|k s|r k s|r k l c|r k t v|r k s|k s c|k s|k s c|r|r v|r];
    cbn [follow]; cbn [after] in A; cbn [after] in ST; cbn [allowed] in AL;
    try (apply (ST _ eq_refl); exact C).
  - (* NewEmpty *) refine (ST _ eq_refl _). rewrite put_other; [exact C | congruence].
  - refine (ST _ eq_refl _). rewrite put_other; [exact C | congruence].
  - refine (ST _ eq_refl _). rewrite put_other; [exact C | congruence].
  - (* NewCopy *) destruct (went x); refine (ST _ eq_refl _); [rewrite put_other; [exact C | destruct AL; congruence] | exact C].
  - (* NewMove *) destruct AL as (AL & _). assert (NE : k <> i) by congruence.
    destruct (Nat.eqb_spec j i) as [-> |N].
    + exists y. rewrite A, put_same. auto.
    + exists y. rewrite A, !put_other by congruence. auto.
  - (* Delete *) destruct (Nat.eqb_spec k i) as [-> |N].
    + apply (NW None A). discriminate.
    + exists y. rewrite A, put_other by congruence. auto.
  - (* Swap *) destruct (Nat.eqb_spec k i) as [-> |N].
    + exists y. rewrite A. unfold put. destruct (Nat.eqb_spec j i) as [-> |M]; [auto|]. rewrite Nat.eqb_refl. auto.
    + destruct (Nat.eqb_spec j i) as [-> |M].
      * exists y. rewrite A, put_same. auto.
      * exists y. rewrite A, !put_other by congruence. auto.
  - (* CopyAssign *) destruct (Nat.eqb_spec k i) as [-> |N]; cbn [andb].
    + destruct (went x).
      * apply (NW _ A). intros z Z. unfold renew in Z. destruct (content w j) as [[u|]|]; try discriminate.
        injection Z as <-. cbn. congruence.
      * exists y. rewrite A. auto.
    + exists y. rewrite A. destruct (went x); [rewrite put_other by congruence|]; auto.
  - (* MoveAssign *) destruct (Nat.eqb_spec k i) as [-> |N].
    + destruct (Nat.eqb_spec i j) as [-> |M].
      * apply (NW _ A). discriminate.
      * intros h z K S. rewrite A in K. unfold put in K. destruct (Nat.eqb_spec h i) as [-> |].
        -- destruct M. symmetry. exact (U j z K S).
        -- destruct (h =? j); [discriminate|]. apply n. exact (U h z K S).
    + destruct (Nat.eqb_spec j i) as [-> |M].
      * exists y. rewrite A. destruct (Nat.eqb_spec k i); [congruence|]. rewrite put_same. auto.
      * exists y. rewrite A. destruct (k =? j); rewrite ?put_other by congruence; auto.
  - (* AssignValue *) destruct (Nat.eqb_spec k i) as [-> |N].
    + apply (NW _ A). intros z [= <-]. cbn. congruence.
    + exists y. rewrite A, put_other by congruence. auto.
  - destruct (Nat.eqb_spec k i) as [-> |N].
    + apply (NW _ A). intros z [= <-]. cbn. congruence.
    + exists y. rewrite A, put_other by congruence. auto.
  - (* Clear *) destruct (Nat.eqb_spec k i) as [-> |N].
    + apply (NW _ A). discriminate.
    + exists y. rewrite A, put_other by congruence. auto.
  - (* TakeUnsafe *) rewrite A. destruct c; [eauto|]. unfold put. destruct (Nat.eqb_spec i k) as [<- |N]; [|eauto].
    rewrite C. cbn. eauto.
  - (* Write *) rewrite A, C. unfold through, revalue. destruct (refs w r) as [[n|n|]|]; eauto.
    destruct (Nat.eqb_spec (serial y) n) as [<- |]; eauto.
  - (* MoveOut *) rewrite A, C. destruct (refs w r) as [[n|n|]|]; eauto.
    destruct (serial y =? n); cbn; eauto.
Qed.

Lemma keep_step w o x w' q p : Inv w -> step o w = Ok x w' -> binds o <> Some q -> refs w q = Some p -> refs w' q = Some p.
Proof.
  intros I E B R. pose proof (step_fine w o I) as F. unfold fine in F. rewrite E in F.
  destruct F as ((_ & _ & _ & RB & _) & _). rewrite RB.
  destruct o; cbn in B |- *; try exact R; try (destruct (ask _ _)); try exact R; rewrite put_other by congruence; exact R.
Qed.

Lemma follow_run q l : forall w xs w' i y, Inv w -> run l w = Some (xs, w') -> content w i = Some (Some y) ->
  refs w q = Some (Payload (serial y)) -> keeps q l ->
  refs w' q = Some (Payload (serial y)) /\
  match tracked i l xs with
  | Some j => exists y', content w' j = Some (Some y') /\ serial y' = serial y /\ ity y' = ity y
  | None => nowhere (serial y) w'
  end.
Proof.
  induction l as [|o l IH]; intros w xs w' i y I H C R K; cbn in H.
  - injection H as <- <-. cbn. eauto 6.
  - destruct (step o w) as [x u|] eqn:E; [|discriminate].
    destruct (run l u) as [[ys u']|] eqn:RU; [|discriminate]. injection H as <- <-.
    inversion K as [|? ? K1 K2]; subst.
    assert (J := step_inv w o x u I E). assert (R' := keep_step w o x u q _ I E K1 R).
    assert (F := follow_step w o x u i y I E C). cbn [tracked].
    destruct (follow i o x) as [j|].
    + destruct F as (y1 & C1 & S1 & T1). rewrite <- S1 in R'.
      destruct (IH u ys u' j y1 J RU C1 R' K2) as (R2 & F2). rewrite S1 in R2, F2. rewrite T1 in F2. auto.
    + split.
      * assert (G : forall l' w1 zs w2, Inv w1 -> run l' w1 = Some (zs, w2) -> keeps q l' -> refs w1 q = Some (Payload (serial y)) ->
                    refs w2 q = Some (Payload (serial y))).
        { clear. induction l' as [|o l' IH]; intros w1 zs w2 I H K R; cbn in H; [injection H as _ <-; exact R|].
          destruct (step o w1) as [x u|] eqn:E; [|discriminate].
          destruct (run l' u) as [[ys u']|] eqn:RU; [|discriminate]. injection H as _ <-.
          inversion K as [|? ? K1 K2]; subst.
          exact (IH u ys u' (step_inv w1 o x u I E) RU K2 (keep_step w1 o x u q _ I E K1 R)). }
        exact (G l u ys u' J RU K2 R').
      * refine (nowhere_run _ l u ys u' J _ F RU).
        destruct (content_item w i y C) as (P & _). pose proof (inv_below w i _ I P). pose proof (next_mono w o x u E). lia.
Qed.

(* plain programs *)
Definition Plain (m : nat -> sty * V) (w : cworld V) : Prop :=
  (forall i y, content w i = Some (Some y) -> is_plain (ity y)) /\ (forall k, fst (mine w k) = fst (m k)).

Lemma plain_step m w o x w' : Inv w -> Plain m w -> plain_call m o -> step o w = Ok x w' -> Plain m w'.
Proof.
  intros I (P & M) PC E. pose proof (step_fine w o I) as F. unfold fine in F. rewrite E in F.
  destruct F as ((_ & _ & A & _ & N) & _). split.
  - intros i y C. rewrite A in C. clear A N E.
    destruct o; cbn in C, PC; unfold put, renew, through, revalue, spent in C;
      repeat match type of C with
        | context[if ?b then _ else _] => destruct b
        | context[match content w ?j with _ => _ end] => let K := fresh "K" in destruct (content w j) as [[?|]|] eqn:K
        | context[match refs w ?j with _ => _ end] => destruct (refs w j) as [[?|?|]|]
        end;
      try discriminate; try (injection C as <-); cbn; eauto; try (split; reflexivity).
  - intros k. rewrite N. destruct o; cbn; try apply M;
      destruct (refs w r) as [[?|?|]|]; try apply M; unfold put;
      match goal with |- context[if ?b then _ else _] => destruct b eqn:Q end; try apply M;
      apply Nat.eqb_eq in Q; subst; apply M.
Qed.

Lemma plain_run m l : forall w xs w', Inv w -> Plain m w -> Forall (plain_call m) l -> run l w = Some (xs, w') -> Plain m w'.
Proof.
  induction l as [|o l IH]; intros w xs w' I P K H; cbn in H; [injection H as _ <-; exact P|].
  destruct (step o w) as [x u|] eqn:E; [|discriminate].
  destruct (run l u) as [[ys u']|] eqn:R; [|discriminate]. injection H as _ <-. inversion K; subst.
  refine (IH u ys u' (step_inv w o x u I E) _ _ R); [|assumption]. refine (plain_step m w o x u I P _ E). assumption.
Qed.

Lemma plain_start m : Plain m (cstart m).
Proof. split; [discriminate | reflexivity]. Qed.

Lemma plain_ask (s : sty) (c : option (option (item V))) : is_plain s -> (forall y, c = Some (Some y) -> is_plain (ity y)) ->
  ask s c <> WrongClass.
Proof.
  intros (S1 & S2) P. destruct c as [[y|]|]; cbn; try discriminate.
  destruct (P y eq_refl) as (Y1 & Y2). destruct (tbase s =? tbase (ity y)) eqn:B; [|discriminate].
  unfold same_class. rewrite S1, S2, Y1, Y2, B. discriminate.
Qed.

Lemma plain_allowed m w o : Inv w -> Plain m w -> plain_call m o -> checked_call o = true -> declared o (content w) ->
  allowed o (content w) (mine w) (refs w).
Proof.
  intros I (P & M) PC CC D. destruct o; cbn in *; try discriminate; try exact D;
    (split; [exact D|]); apply plain_ask; auto; try (intros; eapply P; eassumption); try (split; reflexivity).
  rewrite M. destruct PC as [-> | PC]; cbn; [split; reflexivity|]. destruct c; split; auto.
Qed.

Lemma plain_safe m w o : plainly copyable husk m w -> plain_call m o -> checked_call o = true -> declared o (content w) ->
  step o w <> Undefined.
Proof.
  intros (l & xs & R & F) PC CC D E.
  assert (I := run_inv l _ _ _ (inv_start m) R).
  assert (P := plain_run m l _ _ _ (inv_start m) (plain_start m) F R).
  pose proof (step_fine w o I) as G. unfold fine in G. rewrite E in G.
  exact (G (plain_allowed m w o I P PC CC D)).
Qed.

End Proofs.
