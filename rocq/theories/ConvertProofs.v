From Coq Require Import String Ascii DecimalString DecimalFacts DecimalN DecimalPos List Bool Arith ZArith NArith Lia.
From Verif Require Import ConvertModel ConvertSpec.
Import ListNotations.
Open Scope Z_scope.

(* ---- characters ---- *)
Lemma code_inj : forall a b, code a = code b -> a = b.
Proof.
  intros a b H. unfold code in H. apply N2Z.inj in H.
  rewrite <- (ascii_N_embedding a), <- (ascii_N_embedding b), H. auto.
Qed.
Lemma space_cases : forall c, is_space c = true ->
  In (code c) [32; 9; 10; 11; 12; 13].
Proof. intros c H. unfold is_space in H. simpl. lia. Qed.
Lemma space_digit : forall c, is_space c = true -> digit c = 99.
Proof.
  intros c H. apply space_cases in H. unfold digit.
  repeat (destruct H as [H|H]; [rewrite <- H; reflexivity|]). contradiction.
Qed.
Lemma space_lower : forall c, is_space c = true -> lower c = c.
Proof.
  intros c H. apply space_cases in H. unfold lower.
  repeat (destruct H as [H|H]; [rewrite <- H; reflexivity|]). contradiction.
Qed.

Lemma digit_dec : forall c, digit c < 10 -> 48 <= code c <= 57.
Proof.
  intros c. unfold digit.
  destruct ((48 <=? code c) && (code c <=? 57)) eqn:A; [lia|].
  destruct ((97 <=? code c) && (code c <=? 122)) eqn:B; [lia|].
  destruct ((65 <=? code c) && (code c <=? 90)) eqn:C; lia.
Qed.
Lemma lower_low : forall c, code c < 65 -> lower c = c.
Proof. intros c H. unfold lower. destruct ((65 <=? code c) && (code c <=? 90)) eqn:A; [lia|auto]. Qed.

(* ---- blanks ---- *)
Lemma blanks_le : forall s, (blanks s <= length s)%nat.
Proof. induction s; simpl; [lia|]. destruct (is_space a); lia. Qed.
Lemma blanks_app : forall l w, blank l -> blanks (l ++ w) = (length l + blanks w)%nat.
Proof. intros l w H. induction H; simpl; auto. rewrite H, IHForall. auto. Qed.
Lemma blanks_all : forall s, blanks s = length s <-> blank s.
Proof.
  induction s as [|c s IH]; simpl; split; intros H; auto; [constructor| |].
  - destruct (is_space c) eqn:E; [|lia]. constructor; auto. apply IH. lia.
  - inversion H; subst. rewrite H2. f_equal. apply IH. auto.
Qed.
Definition no_space_head (w : text) : Prop := match w with [] => True | c :: _ => is_space c = false end.
Lemma split_blanks : forall s, exists l w, s = l ++ w /\ blank l /\ no_space_head w.
Proof.
  induction s as [|c s (l & w & E & B & N)].
  - exists [], []. repeat split; constructor.
  - destruct (is_space c) eqn:Ec.
    + exists (c :: l), w. rewrite E. repeat split; auto. constructor; auto.
    + exists [], (c :: s). repeat split; auto. constructor.
Qed.
Lemma blanks_head : forall w, no_space_head w -> blanks w = O.
Proof. intros [|c w] H; auto. simpl in *. rewrite H. auto. Qed.

Lemma skipn_app_len : forall {A} (l w : list A), skipn (length l) (l ++ w) = w.
Proof. intros. rewrite skipn_app, skipn_all, Nat.sub_diag. auto. Qed.
Lemma skipn_app_plus : forall {A} (l w : list A) k, skipn (length l + k) (l ++ w) = skipn k w.
Proof. intros. rewrite skipn_app, skipn_all2 by lia. replace (length l + k - length l)%nat with k by lia. auto. Qed.

Lemma blank_dec : forall s, blank s \/ ~ blank s.
Proof.
  intros s. destruct (Nat.eq_dec (blanks s) (length s)) as [E|E]; [left|right]; rewrite <- blanks_all; auto.
Qed.

Lemma decode_some : forall {A} (d : text -> A * option nat) l w r k,
  blank l -> no_space_head w -> l ++ w <> [] -> d w = (r, Some k) -> (k <= length w)%nat ->
  (blank (skipn k w) -> decode (l ++ w) (Some (length (l ++ w))) d = Some r) /\
  (~ blank (skipn k w) -> decode (l ++ w) (Some (length (l ++ w))) d = None).
Proof.
  intros A d l w r k B N NE D K. unfold decode.
  destruct (length (l ++ w)) eqn:L; [destruct (l ++ w); [congruence|discriminate]|]. rewrite <- L.
  unfold skip_spaces. cbn [skipn]. rewrite (blanks_app _ _ B), (blanks_head _ N), Nat.add_0_r. cbn [Nat.add].
  rewrite skipn_app_len, D. rewrite skipn_app_plus.
  rewrite app_length. assert (Ls : length (skipn k w) = (length w - k)%nat) by apply skipn_length.
  split; intros H.
  - apply blanks_all in H. destruct (Nat.eqb_spec (length l + k) (length l + length w)) as [E|E].
    + rewrite E, Nat.eqb_refl. auto.
    + replace (length l + k + blanks (skipn k w))%nat with (length l + length w)%nat by lia. rewrite Nat.eqb_refl. auto.
  - rewrite <- blanks_all in H. pose proof (blanks_le (skipn k w)).
    destruct (Nat.eqb_spec (length l + k) (length l + length w)) as [E|E]; [lia|].
    destruct (Nat.eqb_spec (length l + k + blanks (skipn k w)) (length l + length w)); [lia|auto].
Qed.
Lemma decode_none : forall {A} (d : text -> A * option nat) l w r,
  blank l -> no_space_head w -> d w = (r, None) -> decode (l ++ w) (Some (length (l ++ w))) d = None.
Proof.
  intros A d l w r B N D. unfold decode.
  destruct (length (l ++ w)) eqn:L; auto. rewrite <- L.
  unfold skip_spaces. cbn [skipn]. rewrite (blanks_app _ _ B), (blanks_head _ N), Nat.add_0_r. cbn [Nat.add].
  rewrite skipn_app_len, D. auto.
Qed.

(* ---- digits ---- *)
Definition fold_digits (base acc : Z) (ds : text) : Z := fold_left (fun v c => v * base + digit c) ds acc.
Definition stops (base : Z) (s : text) : Prop := match s with [] => True | c :: _ => base <= digit c end.
Lemma digits_app : forall base ds rest acc, Forall (digit_in base) ds -> stops base rest ->
  digits base acc (ds ++ rest) = (fold_digits base acc ds, length ds).
Proof.
  intros base ds rest acc H S. revert acc. induction H as [|c ds Hc H IH]; intros acc; simpl.
  - destruct rest as [|c rest]; auto. simpl in *. destruct (Z.ltb_spec (digit c) base); [lia|auto].
  - unfold digit_in in Hc. destruct (Z.ltb_spec (digit c) base); [|lia]. rewrite IH. auto.
Qed.
Lemma digits_inv : forall base s acc v n, digits base acc s = (v, n) ->
  (n <= length s)%nat /\ Forall (digit_in base) (firstn n s) /\ v = fold_digits base acc (firstn n s).
Proof.
  induction s as [|c s IH]; intros acc v n H; simpl in H.
  - injection H as <- <-. simpl. repeat split; auto.
  - destruct (Z.ltb_spec (digit c) base).
    + destruct (digits base (acc * base + digit c) s) as [v' n'] eqn:E. injection H as <- <-.
      destruct (IH _ _ _ E) as (A & B & C). simpl. split; [lia|]. split; auto.
    + injection H as <- <-. simpl. repeat split; auto; lia.
Qed.
Lemma stops_blank : forall base r, blank r -> base <= 99 -> stops base r.
Proof. intros base r H B. destruct H; simpl; auto. rewrite (space_digit _ H). auto. Qed.

Lemma code_zero : forall c, code c = 48 -> c = "0"%char.
Proof. intros c H. apply code_inj. exact H. Qed.
Lemma is_x_cases : forall x, is_x x = true -> x = "x"%char \/ x = "X"%char.
Proof.
  intros x H. unfold is_x in H. apply orb_true_iff in H. destruct H as [H|H]; apply Z.eqb_eq in H; [left|right]; apply code_inj; exact H.
Qed.

Lemma magnitude_dec : forall c t, code c <> 48 -> magnitude (c :: t) = digits 10 0 (c :: t).
Proof.
  intros c t H. unfold magnitude. destruct (Z.eqb_spec (code c) 48); [contradiction|].
  destruct t as [|x [|h t]]; auto.
Qed.
Lemma magnitude_oct : forall t, match t with x :: _ => is_x x = false | [] => True end ->
  magnitude ("0"%char :: t) = digits 8 0 ("0"%char :: t).
Proof.
  intros t H. unfold magnitude. change (code "0" =? 48) with true.
  destruct t as [|x [|h t]]; auto. rewrite H. auto.
Qed.
Lemma digit_not_x : forall c, digit c < 10 -> is_x c = false.
Proof.
  intros c H. unfold is_x. destruct (Z.eqb_spec (code c) 120) as [E|E].
  - assert (c = "x"%char) by (apply code_inj; exact E). subst. compute in H. discriminate.
  - destruct (Z.eqb_spec (code c) 88) as [E'|E']; auto.
    assert (c = "X"%char) by (apply code_inj; exact E'). subst. compute in H. discriminate.
Qed.
Lemma space_not_x : forall c, is_space c = true -> is_x c = false.
Proof.
  intros c H. apply space_cases in H. unfold is_x.
  repeat (destruct H as [H|H]; [rewrite <- H; reflexivity|]). contradiction.
Qed.

Lemma magnitude_literal : forall s v r, unsigned s v -> blank r ->
  magnitude (s ++ r) = (v, length s).
Proof.
  intros s v r U B. inversion U; subst.
  - cbn [app]. rewrite magnitude_dec.
    + change (c :: ds ++ r) with ((c :: ds) ++ r). rewrite digits_app; auto.
      apply stops_blank; auto; lia.
    + intros E. apply H0. apply code_zero; auto.
  - cbn [app]. rewrite magnitude_oct.
    + change ("0"%char :: ds ++ r) with (("0"%char :: ds) ++ r). rewrite digits_app; auto.
      * constructor; auto. unfold digit_in. reflexivity.
      * apply stops_blank; auto; lia.
    + destruct H as [|c ds Hc H]; cbn [app].
      * destruct B; auto. apply space_not_x; auto.
      * apply digit_not_x. unfold digit_in in Hc. lia.
  - assert (Hc : digit c < 16) by (inversion H0; auto).
    cbn [app magnitude]. change (code "0" =? 48) with true.
    replace (is_x x) with true by (destruct H; subst; reflexivity).
    destruct (Z.ltb_spec (digit c) 16); [|lia]. cbn [andb].
    change (c :: ds ++ r) with ((c :: ds) ++ r). rewrite digits_app; auto.
    apply stops_blank; auto; lia.
Qed.
Lemma magnitude_inv : forall s v n, magnitude s = (v, S n) ->
  (S n <= length s)%nat /\ unsigned (firstn (S n) s) v.
Proof.
  intros s v n H.
  assert (Oct : forall t, digits 8 0 ("0"%char :: t) = (v, S n) -> (S n <= length ("0"%char :: t))%nat /\ unsigned (firstn (S n) ("0"%char :: t)) v).
  { intros t E. destruct (digits_inv _ _ _ _ _ E) as (A & B & C). split; auto.
    cbn [firstn] in *. inversion B; subst. apply U_oct. auto. }
  assert (Dec : forall c t, (code c =? 48) = false -> digits 10 0 (c :: t) = (v, S n) -> (S n <= length (c :: t))%nat /\ unsigned (firstn (S n) (c :: t)) v).
  { intros c t Hc E. destruct (digits_inv _ _ _ _ _ E) as (A & B & C). split; auto.
    cbn [firstn] in *. inversion B; subst. apply U_dec; auto. intros ->. discriminate. }
  destruct s as [|c [|x [|h t]]]; cbn [magnitude] in H.
  - discriminate.
  - destruct (code c =? 48) eqn:E; auto. apply Z.eqb_eq, code_zero in E. subst. auto.
  - destruct (code c =? 48) eqn:E; auto. apply Z.eqb_eq, code_zero in E. subst. auto.
  - destruct (code c =? 48) eqn:E; cbn [andb] in H; auto.
    apply Z.eqb_eq, code_zero in E. subst c.
    destruct (is_x x && (digit h <? 16)) eqn:X; auto.
    apply andb_true_iff in X. destruct X as [X Hh]. apply Z.ltb_lt in Hh.
    destruct (digits 16 0 (h :: t)) as [v' n'] eqn:D. injection H as -> <-.
    destruct (digits_inv _ _ _ _ _ D) as (A & B & C).
    destruct n'; [exfalso|].
    { cbn [digits] in D. destruct (Z.ltb_spec (digit h) 16); [|lia]. destruct (digits 16 _ t); discriminate. }
    split; [simpl in *; lia|]. cbn [firstn] in *. subst v. apply U_hex; auto. apply is_x_cases; auto.
Qed.

Lemma clamp_nearest : forall v z, z = clamp v <-> nearest v z.
Proof. intros. unfold clamp, nearest, int_min, int_max. lia. Qed.

Lemma unsigned_head : forall s v, unsigned s v -> exists c t, s = c :: t /\ digit c < 10.
Proof. intros s v U. inversion U; subst; do 2 eexists; (split; [reflexivity|]); first [assumption|reflexivity]. Qed.
Lemma digit_head : forall c, digit c < 10 -> is_space c = false /\ code c <> 45 /\ code c <> 43.
Proof.
  intros c H. split; [|split].
  - destruct (is_space c) eqn:E; auto. apply space_digit in E. lia.
  - intros E. unfold digit in H. rewrite E in H. compute in H. discriminate.
  - intros E. unfold digit in H. rewrite E in H. compute in H. discriminate.
Qed.
Lemma literal_head : forall s v, literal s v -> s <> [] /\ forall r, no_space_head (s ++ r).
Proof.
  intros s v L. inversion L; subst; try (split; [discriminate|intros; reflexivity]).
  destruct (unsigned_head _ _ H) as (c & t & -> & D). split; [discriminate|]. intros. simpl. apply digit_head; auto.
Qed.
Lemma strtoll_literal : forall s v r, literal s v -> blank r -> strtoll (s ++ r) = (clamp v, Some (length s)).
Proof.
  intros s v r L B. unfold strtoll. destruct (literal_head _ _ L) as [NE NH]. rewrite (blanks_head _ (NH r)).
  cbn [skipn Nat.add]. inversion L; subst; clear L.
  - destruct (unsigned_head _ _ H) as (c & t & E & D). destruct (digit_head _ D) as (_ & D1 & D2).
    pose proof (magnitude_literal _ _ r H B) as M. rewrite E in *. cbn [app] in *.
    destruct (Z.eqb_spec (code c) 45); [contradiction|]. destruct (Z.eqb_spec (code c) 43); [contradiction|].
    cbn [skipn]. rewrite M. reflexivity.
  - cbn [app]. change (code "+" =? 45) with false. change (code "+" =? 43) with true. cbn [skipn].
    rewrite (magnitude_literal _ _ r H B). destruct (unsigned_head _ _ H) as (c & t & -> & D). reflexivity.
  - cbn [app]. change (code "-" =? 45) with true. cbn [skipn].
    rewrite (magnitude_literal _ _ r H B). destruct (unsigned_head _ _ H) as (c & t & -> & D). reflexivity.
Qed.
Lemma strtoll_inv : forall w, no_space_head w ->
  strtoll w = (0, Some O) \/
  exists lit v, literal lit v /\ (length lit <= length w)%nat /\ firstn (length lit) w = lit /\ strtoll w = (clamp v, Some (length lit)).
Proof.
  intros w N. unfold strtoll. rewrite (blanks_head _ N). cbn [skipn].
  destruct w as [|c t]; [left; reflexivity|].
  assert (G : forall k neg (m : text), (c :: t) = firstn k (c :: t) ++ m -> length (firstn k (c :: t)) = k ->
    (forall s v, unsigned s v -> literal (firstn k (c :: t) ++ s) (if neg : bool then - v else v)) ->
    (let '(v, n) := magnitude m in match n with O => (0, Some O) | _ => (clamp (if neg then - v else v), Some (0 + k + n)%nat) end) = (0, Some O) \/
    exists lit v, literal lit v /\ (length lit <= length (c :: t))%nat /\ firstn (length lit) (c :: t) = lit /\
     (let '(v, n) := magnitude m in match n with O => (0, Some O) | _ => (clamp (if neg then - v else v), Some (0 + k + n)%nat) end) = (clamp v, Some (length lit))).
  { intros k neg m E Lk HL. destruct (magnitude m) as [v n] eqn:M. destruct n; [left; auto|right].
    destruct (magnitude_inv _ _ _ M) as [A B].
    exists (firstn k (c :: t) ++ firstn (S n) m), (if neg then - v else v).
    assert (Ll : length (firstn k (c :: t) ++ firstn (S n) m) = (k + S n)%nat) by (rewrite app_length, Lk, firstn_length; lia).
    split; [apply HL; auto|]. rewrite Ll. assert (length (c :: t) = (k + length m)%nat) by (rewrite E at 1; rewrite app_length, Lk; auto).
    split; [lia|]. split; auto. rewrite E at 1. rewrite firstn_app, Lk, firstn_firstn, Nat.min_r by lia.
    replace (k + S n - k)%nat with (S n) by lia. auto. }
  destruct (Z.eqb_spec (code c) 45) as [E|E].
  - apply (G 1%nat true t); auto. intros s v U. assert (c = "-"%char) by (apply code_inj; exact E). subst. cbn [firstn app]. apply L_minus; auto.
  - destruct (Z.eqb_spec (code c) 43) as [E'|E'].
    + apply (G 1%nat false t); auto. intros s v U. assert (c = "+"%char) by (apply code_inj; exact E'). subst. cbn [firstn app]. apply L_plus; auto.
    + apply (G O false (c :: t)); auto. intros s v U. constructor; auto.
Qed.

Lemma firstn_is_prefix : forall {A} (p w : list A), firstn (length p) w = p -> w = p ++ skipn (length p) w.
Proof. intros A p w H. rewrite <- H at 1. rewrite firstn_skipn. auto. Qed.

Lemma int_of_string_iff : forall s z, int_of_string s = Some z <->
  (exists l lit r v, s = l ++ lit ++ r /\ blank l /\ blank r /\ literal lit v /\ nearest v z) \/
  (s <> [] /\ blank s /\ z = 0).
Proof.
  intros s z. unfold int_of_string, int_of. split.
  - intros H. destruct (split_blanks s) as (l & w & -> & B & N).
    destruct (strtoll_inv w N) as [E|(lit & v & L & Le & F & E)].
    + destruct w as [|c w].
      * right. rewrite app_nil_r in *. destruct l as [|a l]; [discriminate|]. split; [discriminate|]. split; auto.
        destruct (decode_some strtoll (a :: l) [] 0 O B I ltac:(discriminate) E ltac:(auto)) as [D _].
        rewrite app_nil_r in D. rewrite D in H by constructor. congruence.
      * exfalso. destruct (decode_some strtoll l (c :: w) 0 O B N ltac:(destruct l; discriminate) E ltac:(simpl; lia)) as [_ D].
        rewrite D in H; [discriminate|]. cbn [skipn]. intros X. inversion X. simpl in N. congruence.
    + assert (NE : l ++ w <> []).
      { destruct (literal_head _ _ L) as [NL _]. destruct w; [|destruct l; discriminate]. destruct lit; [contradiction|discriminate]. }
      destruct (decode_some strtoll l w (clamp v) (length lit) B N NE E Le) as [D1 D2].
      destruct (blank_dec (skipn (length lit) w)) as [X|X].
      * rewrite (D1 X) in H. injection H as <-. left. exists l, lit, (skipn (length lit) w), v.
        rewrite <- (firstn_is_prefix lit w F). repeat split; auto. apply clamp_nearest. auto.
      * rewrite (D2 X) in H. discriminate.
  - intros [(l & lit & r & v & -> & B & Br & L & Nr)|(NE & B & ->)].
    + destruct (literal_head _ _ L) as [NL NH]. pose proof (strtoll_literal _ _ r L Br) as E.
      destruct (decode_some strtoll l (lit ++ r) (clamp v) (length lit) B (NH r)) as [D _]; auto.
      * destruct lit; [contradiction|]. destruct l; discriminate.
      * rewrite app_length. lia.
      * rewrite D; [|rewrite skipn_app_len; auto]. f_equal. symmetry. apply clamp_nearest. auto.
    + destruct (decode_some strtoll s [] 0 O B I) as [D _]; auto; [rewrite app_nil_r; auto|].
      rewrite app_nil_r in D. apply D. constructor.
Qed.

(* ---- std::to_string ---- *)
Lemma fold_digits_uint : forall u p, fold_digits 10 (Zpos p) (chars (NilEmpty.string_of_uint u)) = Zpos (Pos.of_uint_acc u p).
Proof.
  unfold chars, fold_digits.
  induction u; intros p; cbn [NilEmpty.string_of_uint list_ascii_of_string fold_left Pos.of_uint_acc]; auto;
    rewrite <- IHu; f_equal;
    match goal with |- context [digit ?c] => let v := eval compute in (digit c) in change (digit c) with v end; lia.
Qed.
Lemma number_uint : forall u, number 10 (chars (NilEmpty.string_of_uint u)) = Z.of_N (N.of_uint u).
Proof.
  unfold number, chars, N.of_uint.
  induction u; cbn [NilEmpty.string_of_uint list_ascii_of_string fold_left Pos.of_uint]; auto;
    (match goal with |- context [?x * 10 + digit ?c] => change (x * 10 + digit c) with (digit c); let v := eval compute in (digit c) in change (digit c) with v end);
    try apply IHu; apply fold_digits_uint.
Qed.
Lemma digits_uint : forall u, Forall (digit_in 10) (chars (NilEmpty.string_of_uint u)).
Proof. unfold chars. induction u; cbn; constructor; auto; unfold digit_in; reflexivity. Qed.
Lemma unorm_head : forall n, n <> 0%N -> match N.to_uint n with Decimal.Nil | Decimal.D0 _ => False | _ => True end.
Proof.
  intros n H.
  assert (E : N.to_uint n = Decimal.unorm (N.to_uint n)).
  { rewrite <- (DecimalN.Unsigned.to_of (N.to_uint n)), DecimalN.Unsigned.of_to. auto. }
  destruct (N.to_uint n) eqn:U; auto.
  - simpl in E. discriminate.
  - exfalso. apply H. rewrite <- (DecimalN.Unsigned.of_to n), U.
    unfold Decimal.unorm in E. destruct (Decimal.nzhead (Decimal.D0 u)) eqn:Z; try discriminate.
    + injection E as ->. reflexivity.
    + exfalso. eapply DecimalFacts.nzhead_nonzero; eauto.
Qed.
Lemma nat_literal : forall n, unsigned (chars (NilEmpty.string_of_uint (N.to_uint n))) (Z.of_N n).
Proof.
  intros n. destruct (N.eq_dec n 0) as [->|H].
  - apply (U_oct []). constructor.
  - pose proof (unorm_head n H) as Hd. pose proof (digits_uint (N.to_uint n)) as D.
    pose proof (number_uint (N.to_uint n)) as V. rewrite DecimalN.Unsigned.of_to in V. rewrite <- V. clear V.
    unfold chars in *. destruct (N.to_uint n); try contradiction;
      cbn [NilEmpty.string_of_uint list_ascii_of_string] in *; inversion D; subst; apply U_dec; auto; discriminate.
Qed.
Lemma int_literal : forall z, literal (int_to_string z) z.
Proof.
  intros z. unfold int_to_string. destruct (Z.ltb_spec z 0).
  - replace z with (- Z.of_N (Z.to_N (- z))) at 2 by lia. apply L_minus. apply nat_literal.
  - replace z with (Z.of_N (Z.to_N z)) at 2 by lia. constructor. apply nat_literal.
Qed.

(* ---- booleans ---- *)
Definition starts (p s : text) : Prop := firstn (length p) s = p.
Lemma matches_lowered : forall p s n, (length p <= n)%nat -> ~ In nul p ->
  (matches p (map lower (firstn (Nat.min (strlen s) n) s)) = true <-> starts p (map lower s)).
Proof.
  unfold starts. induction p as [|c p IH]; intros s n Hn NZ.
  - simpl. tauto.
  - destruct n as [|n]; [simpl in Hn; lia|]. cbn [matches length].
    assert (Zc : c <> nul) by (intros ->; apply NZ; left; auto).
    assert (Zp : ~ In nul p) by (intros X; apply NZ; right; auto).
    destruct s as [|a s].
    + cbn [strlen Nat.min firstn map]. change (char_at [] 0) with nul.
      destruct (Ascii.eqb_spec c nul); [contradiction|]. cbn [andb]. split; intros X; discriminate X.
    + cbn [strlen]. destruct (Z.eqb_spec (code a) 0) as [E|E].
      * assert (a = nul) by (apply code_inj; exact E). subst a. cbn [Nat.min firstn map tl].
        change (char_at [] 0) with nul. destruct (Ascii.eqb_spec c nul); [contradiction|].
        cbn [andb]. split; [discriminate|]. intros X. injection X as X _. exfalso. apply Zc. rewrite <- X. reflexivity.
      * cbn [Nat.min firstn map tl]. change (char_at (lower a :: map lower (firstn (Nat.min (strlen s) n) s)) 0) with (lower a).
        rewrite andb_true_iff, (IH s n) by (auto; simpl in Hn; lia).
        destruct (Ascii.eqb_spec c (lower a)) as [<-|X].
        -- split; [intros [_ ->]; auto|]. intros Y. injection Y as Y. auto.
        -- split; [intros [? _]; discriminate|]. intros Y. injection Y as Y _. congruence.
Qed.
Lemma patterns_ok : forall p, In p (true_patterns ++ false_patterns) -> (length p <= pattern_length)%nat /\ ~ In nul p.
Proof.
  intros p H. cbn in H. unfold pattern_length.
  repeat (destruct H as [<-|H]; [split; [simpl; lia|intros X; repeat (destruct X as [X|X]; [discriminate|]); contradiction]|]).
  contradiction.
Qed.
Lemma first_match_inv : forall ps s n, (forall p, In p ps -> (length p <= pattern_length)%nat /\ ~ In nul p) ->
  first_match ps (lowered s) = Some n -> exists p, In p ps /\ starts p (map lower s) /\ n = length p.
Proof.
  induction ps as [|p ps IH]; intros s n Ok H; [discriminate|]. cbn [first_match] in H.
  destruct (matches p (lowered s)) eqn:M.
  - injection H as <-. exists p. split; [left; auto|]. split; auto.
    destruct (Ok p (or_introl eq_refl)). apply (matches_lowered p s pattern_length); auto.
  - destruct (IH s n (fun q Hq => Ok q (or_intror Hq)) H) as (q & A & B). exists q. split; [right; auto|auto].
Qed.
Lemma strtobool_inv : forall w b k, strtobool w = (b, Some k) ->
  (k <= length w)%nat /\ exists p, In p (words b) /\ map lower (firstn k w) = p.
Proof.
  intros w b k H. unfold strtobool in H.
  assert (G : forall p, starts p (map lower w) -> (length p <= length w)%nat /\ map lower (firstn (length p) w) = p).
  { intros p S. unfold starts in S. split.
    - rewrite <- S at 1. rewrite firstn_length, map_length. lia.
    - rewrite <- firstn_map. auto. }
  destruct (first_match true_patterns (lowered w)) as [n|] eqn:T.
  - injection H as <- <-. destruct (first_match_inv _ _ _ (fun p Hp => patterns_ok p (in_or_app _ _ _ (or_introl Hp))) T) as (p & A & B & ->).
    destruct (G p B). split; auto. exists p. split; auto. cbn in A |- *. tauto.
  - destruct (first_match false_patterns (lowered w)) as [n|] eqn:F; [|discriminate].
    injection H as <- <-. destruct (first_match_inv _ _ _ (fun p Hp => patterns_ok p (in_or_app _ _ _ (or_intror Hp))) F) as (p & A & B & ->).
    destruct (G p B). split; auto. exists p. split; auto. cbn in A |- *. tauto.
Qed.
(* the pattern list decides as the prefix test on the lowered text *)
Fixpoint prefix_of (p s : text) : bool :=
  match p, s with
  | [], _ => true
  | a :: p', c :: s' => Ascii.eqb a c && prefix_of p' s'
  | _ :: _, [] => false
  end.
Lemma prefix_of_starts : forall p s, prefix_of p s = true <-> starts p s.
Proof.
  unfold starts. induction p as [|a p IH]; intros [|c s]; cbn; try tauto; [split; discriminate|].
  rewrite andb_true_iff, IH. destruct (Ascii.eqb_spec a c) as [<-|X].
  - split; [intros [_ ->]; auto|intros Y; injection Y as Y; auto].
  - split; [intros [? _]; discriminate|intros Y; injection Y as Y _; congruence].
Qed.
Fixpoint first_prefix (ps : list text) (s : text) : option nat :=
  match ps with
  | [] => None
  | p :: t => if prefix_of p s then Some (length p) else first_prefix t s
  end.
Lemma first_match_prefix : forall ps s, (forall p, In p ps -> (length p <= pattern_length)%nat /\ ~ In nul p) ->
  first_match ps (lowered s) = first_prefix ps (map lower s).
Proof.
  induction ps as [|p ps IH]; intros s Ok; auto. cbn [first_match first_prefix].
  rewrite (IH s (fun q Hq => Ok q (or_intror Hq))).
  replace (matches p (lowered s)) with (prefix_of p (map lower s)); auto.
  apply eq_true_iff_eq. rewrite prefix_of_starts. destruct (Ok p (or_introl eq_refl)).
  symmetry. apply (matches_lowered p s pattern_length); auto.
Qed.
Lemma strtobool_prefix : forall s, strtobool s =
  match first_prefix true_patterns (map lower s) with
  | Some n => (true, Some n)
  | None => match first_prefix false_patterns (map lower s) with Some n => (false, Some n) | None => (false, None) end
  end.
Proof.
  intros s. unfold strtobool. rewrite !first_match_prefix; auto;
    intros p Hp; apply patterns_ok; apply in_or_app; auto.
Qed.
Lemma strtobool_word : forall w b r, In (map lower w) (words b) -> blank r -> strtobool (w ++ r) = (b, Some (length w)).
Proof.
  intros w b r H B. rewrite strtobool_prefix, map_app.
  assert (Br : match r with [] => map lower r = [] | c :: t => map lower r = c :: map lower t /\ is_space c = true end).
  { destruct B as [|c t Hc Ht]; auto. cbn [map]. rewrite space_lower; auto. }
  assert (Lw : length w = length (map lower w)) by (rewrite map_length; auto).
  rewrite Lw. set (p := map lower w) in *. clearbody p. clear Lw w B.
  destruct r as [|c t].
  - rewrite Br. rewrite app_nil_r. destruct b; cbn in H;
      repeat (destruct H as [<-|H]; [reflexivity|]); contradiction.
  - destruct Br as [-> Hc]. set (u := map lower t). clearbody u. clear t.
    assert (Ne : forall a, is_space a = false -> Ascii.eqb a c = false).
    { intros a Ha. destruct (Ascii.eqb_spec a c); auto. subst. congruence. }
    destruct b; cbn in H;
      repeat (destruct H as [<-|H];
        [cbn [app first_prefix true_patterns false_patterns map chars list_ascii_of_string prefix_of length];
         repeat (rewrite Ne by reflexivity; cbn [andb]); reflexivity|]); contradiction.
Qed.
Lemma word_head : forall w b r, In (map lower w) (words b) -> w <> [] /\ no_space_head (w ++ r).
Proof.
  intros w b r H. destruct w as [|c w].
  - exfalso. destruct b; cbn in H; repeat (destruct H as [H|H]; [discriminate|]); contradiction.
  - split; [discriminate|]. cbn. destruct (is_space c) eqn:E; auto. exfalso.
    cbn [map] in H. rewrite (space_lower _ E) in H.
    destruct b; cbn in H; repeat (destruct H as [H|H]; [injection H as <- _; discriminate|]); contradiction.
Qed.
Lemma lower_word : forall w b, (exists p, In p (words b) /\ same_word w p) <-> In (map lower w) (words b).
Proof.
  intros w b. unfold same_word. assert (L : forall p, In p (words b) -> map lower p = p).
  { intros p H. destruct b; cbn in H; repeat (destruct H as [<-|H]; [reflexivity|]); contradiction. }
  split; [intros (p & H & E); rewrite E, (L p H); auto|]. intros H. exists (map lower w). split; auto. rewrite (L _ H). auto.
Qed.
Lemma bool_of_string_iff : forall s b, bool_of_string s = Some b <->
  exists l w r p, s = l ++ w ++ r /\ blank l /\ blank r /\ In p (words b) /\ same_word w p.
Proof.
  intros s b. unfold bool_of_string, bool_of. split.
  - intros H. destruct (split_blanks s) as (l & w & -> & B & N).
    destruct (strtobool w) as [b' [k|]] eqn:E.
    + destruct (strtobool_inv _ _ _ E) as (Le & p & Hp & Hl).
      assert (NE : l ++ w <> []). { intros X. rewrite X in H. discriminate. }
      destruct (decode_some strtobool l w b' k B N NE E Le) as [D1 D2].
      destruct (blank_dec (skipn k w)) as [X|X]; [|rewrite (D2 X) in H; discriminate].
      rewrite (D1 X) in H. injection H as <-.
      destruct (proj2 (lower_word (firstn k w) b')) as (q & Hq & Sq); [rewrite Hl; auto|].
      exists l, (firstn k w), (skipn k w), q. rewrite firstn_skipn. auto.
    + rewrite (decode_none strtobool l w b' B N E) in H. discriminate.
  - intros (l & w & r & p & -> & B & Br & Hp & Sp).
    assert (Hw : In (map lower w) (words b)) by (apply lower_word; eauto).
    destruct (word_head w b r Hw) as [NE NH].
    destruct (decode_some strtobool l (w ++ r) b (length w) B NH) as [D _].
    + destruct w; [contradiction|]. destruct l; discriminate.
    + apply strtobool_word; auto.
    + rewrite app_length. lia.
    + apply D. rewrite skipn_app_len. auto.
Qed.
