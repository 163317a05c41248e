(* C25, C36, C37, C54, C55: conversions between numbers, booleans and strings. *)
From Coq Require Import String Ascii List Bool ZArith Lia.
From Verif Require Import ConvertModel ConvertSpec ConvertProofs NarrowProofs.
Import ListNotations.
Open Scope Z_scope.

(* C36: exactly the C integer literals between blanks are read, as the nearest
   64-bit integer; besides, nonempty blank strings are read as 0 *)
Theorem C36_integer_strings : forall s z, int_of_string s = Some z <->
  (exists l lit r v, s = l ++ lit ++ r /\ blank l /\ blank r /\ literal lit v /\ nearest v z) \/
  (s <> [] /\ blank s /\ z = 0).
Proof. exact int_of_string_iff. Qed.
Example C36_hex : int_of_string (chars " -0x1F  ") = Some (-31) /\ literal (chars "-0x1F") (-31).
Proof.
  split; [reflexivity|]. apply (L_minus (chars "0x1F") 31). apply (U_hex "x" "1" ["F"%char]); auto.
  repeat constructor.
Qed.
Example C36_rejected : int_of_string (chars "12a") = None /\ int_of_string (chars "0x") = None /\
  int_of_string (chars "") = None /\ int_of_string (chars "1 2") = None /\ int_of_string (chars "- 1") = None.
Proof. repeat split. Qed.

(* C36: the blanks and digits in question *)
Lemma listed : forall c l, existsb (Ascii.eqb c) l = true <-> In c l.
Proof.
  intros c l. rewrite existsb_exists. split.
  - intros (x & I & E). apply Ascii.eqb_eq in E. subst. exact I.
  - intros I. exists c. split; [exact I|apply Ascii.eqb_refl].
Qed.
Theorem C36_characters : forall c, (is_space c = true <-> In c white) /\ (forall v, 0 <= v < 16 -> (digit c = v <-> In c (faces v))).
Proof.
  intros c. split.
  - rewrite <- listed. assert (E : is_space c = existsb (Ascii.eqb c) white) by (destruct c as [[] [] [] [] [] [] [] []]; reflexivity).
    rewrite E. reflexivity.
  - intros v V. rewrite <- listed, <- Z.eqb_eq.
    assert (E : forallb (fun n => Bool.eqb (digit c =? Z.of_nat n) (existsb (Ascii.eqb c) (faces (Z.of_nat n)))) (seq 0 16) = true)
      by (destruct c as [[] [] [] [] [] [] [] []]; reflexivity).
    rewrite forallb_forall in E. specialize (E (Z.to_nat v)). rewrite Z2Nat.id in E by lia.
    rewrite (eqb_prop _ _ (E ltac:(apply in_seq; lia))). reflexivity.
Qed.
(* C37: and the letters *)
Theorem C37_letters : forall c d, lower c = d <-> In (c, d) letters \/ (c = d /\ forall e, ~ In (c, e) letters).
Proof.
  intros c d.
  assert (U : (exists e, In (c, e) letters /\ lower c = e) \/ (lower c = c /\ forall e, ~ In (c, e) letters)).
  { destruct c as [[] [] [] [] [] [] [] []];
      first [ right; split; [reflexivity|]; intros e H; vm_compute in H; repeat (destruct H as [H|H]; [discriminate H|]); exact H
            | left; eexists; split; [|reflexivity]; vm_compute; tauto ]. }
  destruct U as [(e & H & L) | [L N]].
  - split.
    + intros <-. left. rewrite L. exact H.
    + intros [H'|[_ N]]; [|destruct (N _ H)]. rewrite L. clear L.
      assert (F : forall x y z, In (x, y) letters -> In (x, z) letters -> y = z).
      { intros x y z A B. vm_compute in A. repeat (destruct A as [A|A]; [injection A as <- <-; vm_compute in B;
          repeat (destruct B as [B|B]; [first [discriminate B | injection B as <-; reflexivity]|]); contradiction|]). contradiction. }
      exact (F _ _ _ H H').
  - split; [intros <-; right; rewrite L; auto|]. intros [H|[-> _]]; [destruct (N _ H)|exact L].
Qed.
Example C37_letter_ex : lower "Q" = "q"%char /\ lower "[" = "["%char.
Proof. split; reflexivity. Qed.
(* C36: every 64-bit integer written as a string reads back, between any blanks *)
Theorem C36_round_trip : forall z l r, int_min <= z <= int_max -> blank l -> blank r ->
  int_of_string (l ++ int_to_string z ++ r) = Some z.
Proof.
  intros z l r H B Br. apply int_of_string_iff. left. exists l, (int_to_string z), r, z.
  repeat split; auto; [apply int_literal|left; auto].
Qed.
Lemma round_trip_plain : forall z, int_min <= z <= int_max -> int_of_string (int_to_string z) = Some z.
Proof.
  intros z H. pose proof (C36_round_trip z [] [] H (Forall_nil _) (Forall_nil _)) as E.
  rewrite app_nil_r in E. exact E.
Qed.
Example C36_min : int_to_string int_min = chars "-9223372036854775808" /\
  int_of_string (int_to_string int_min) = Some int_min.
Proof. split; vm_compute; reflexivity. Qed.

(* C36: so a string that is no numeral can be accepted, a numeral out of range is
   silently replaced, and a leading zero changes the base *)
Theorem C36_blank_refuted : exists s, int_of_string s = Some 0 /\ forall l lit r v, s = l ++ lit ++ r -> ~ literal lit v.
Proof.
  exists (chars " "). split; [reflexivity|]. intros l lit r v E L. destruct (literal_head _ _ L) as [NE NH].
  destruct l as [|a [|b l]]; cbn in E.
  - destruct lit as [|c lit]; [contradiction|]. injection E as <- _. specialize (NH []). discriminate NH.
  - injection E as _ E. destruct lit; [contradiction|discriminate].
  - injection E as _ E. discriminate.
Qed.
Theorem C36_overflow_refuted : exists s v z, literal s v /\ int_of_string s = Some z /\ z <> v.
Proof.
  exists (chars "9223372036854775808"), 9223372036854775808, int_max. split; [|split; [vm_compute; reflexivity|vm_compute; discriminate]].
  constructor. apply (U_dec "9" (chars "223372036854775808")); [reflexivity|discriminate|repeat constructor].
Qed.
Theorem C36_leading_zero_refuted : exists ds, Forall (digit_in 10) ds /\ number 10 ds = 10 /\ int_of_string ds = Some 8.
Proof. exists (chars "010"). split; [repeat constructor|]. split; reflexivity. Qed.

(* C37 *)
Theorem C37_boolean_strings : forall s b, bool_of_string s = Some b <->
  exists l w r p, s = l ++ w ++ r /\ blank l /\ blank r /\ In p (words b) /\ same_word w p.
Proof. exact bool_of_string_iff. Qed.
Theorem C37_round_trip : forall b l r, blank l -> blank r -> bool_of_string (l ++ bool_to_string b ++ r) = Some b.
Proof.
  intros b l r B Br. apply bool_of_string_iff. exists l, (bool_to_string b), r, (bool_to_string b).
  repeat split; auto. destruct b; left; reflexivity.
Qed.
Theorem C37_one_meaning : forall w p q, In p (words true) -> In q (words false) -> same_word w p -> same_word w q -> False.
Proof.
  intros w p q Hp Hq Sp Sq.
  assert (T : bool_of_string w = Some true) by (apply bool_of_string_iff; exists [], w, [], p; rewrite app_nil_r; repeat split; auto; constructor).
  assert (F : bool_of_string w = Some false) by (apply bool_of_string_iff; exists [], w, [], q; rewrite app_nil_r; repeat split; auto; constructor).
  congruence.
Qed.
Example C37_words : bool_of_string (chars " YeS ") = Some true /\ bool_of_string (chars "oFf") = Some false /\
  bool_of_string (chars "yess") = None /\ bool_of_string (chars "  ") = None /\ bool_of_string (chars "falsee") = None.
Proof. repeat split. Qed.

(* C25: with its checks on, narrow_cast accepts exactly the values the target
   type can represent, and returns them unchanged *)
Theorem C25_narrow_cast : forall to from v r, proper to -> proper from -> in_range from v ->
  (narrow_cast true to from v = Some r <-> (in_range to v /\ r = v)).
Proof. exact narrow_debug. Qed.
Theorem C25_rejects : forall to from v, proper to -> proper from -> in_range from v ->
  (narrow_cast true to from v = None <-> ~ in_range to v).
Proof.
  intros to from v Pt Pf R. destruct (narrow_cast true to from v) as [r|] eqn:E.
  - apply narrow_debug in E; auto. split; [discriminate|tauto].
  - split; auto. intros _ T. assert (X : narrow_cast true to from v = Some v) by (apply narrow_debug; auto). congruence.
Qed.
(* without them it never fails and is right on representable values *)
Theorem C25_release : forall to from v, proper to ->
  exists r, narrow_cast false to from v = Some r /\ in_range to r /\ (in_range to v -> r = v).
Proof.
  intros to from v P. exists (cast to v). split; auto. split; [apply cast_range; auto|]. intros. apply cast_id; auto.
Qed.
Example C25_cases :
  narrow_cast true (Int false 64) (Int true 8) (-1) = None /\ narrow_cast true (Int true 8) (Int false 8) 200 = None /\
  narrow_cast true (Int true 8) (Int true 64) (-128) = Some (-128) /\ narrow_cast true Bool (Int true 32) 2 = None /\
  narrow_cast false (Int true 8) (Int true 64) 200 = Some (-56).
Proof. repeat split. Qed.

Section Values.
Context {real config : Type}.
Variables (exact : real -> option Z) (to_real : Z -> real) (real_to_string : real -> text) (real_of_string : text -> option real).
Notation get_integer := (@get_integer real config exact to_real real_to_string real_of_string).
Notation get_boolean := (@get_boolean real config exact to_real real_to_string real_of_string).
Notation get_string := (@get_string real config exact to_real real_to_string real_of_string).

(* C54: a number stored in a config from any integer type of at most 64 bits and
   read as that type is the same number without the checks; with them, it is, or
   storing fails because it does not fit 64 signed bits *)
Theorem C54_typed_release : forall s n v, 1 < n <= 64 -> in_range (Int s n) v ->
  exists c, @store_int real config false (Int s n) v = Some c /\ load_int false (Int s n) (get_integer c) = Some (Some v).
Proof.
  intros s n v N R. exists (VInteger (cast int64 v)). split; [reflexivity|].
  change (Some (Some (cast (Int s n) (cast int64 v))) = Some (Some v)). unfold int64. rewrite (cast_cast s n 64 v); auto; lia.
Qed.
Theorem C54_typed_debug : forall s n v, 1 < n <= 64 -> in_range (Int s n) v ->
  (in_range int64 v -> exists c, @store_int real config true (Int s n) v = Some c /\ load_int true (Int s n) (get_integer c) = Some (Some v)) /\
  (~ in_range int64 v -> @store_int real config true (Int s n) v = None).
Proof.
  intros s n v N R.
  assert (P : proper (Int s n)) by (simpl; lia). assert (P64 : proper int64) by (simpl; lia). split; intros H.
  - assert (E : narrow_cast true int64 (Int s n) v = Some v) by (apply narrow_debug; auto).
    assert (E' : narrow_cast true (Int s n) int64 v = Some v) by (apply narrow_debug; auto).
    exists (VInteger v). unfold store_int. rewrite E. split; auto. unfold ConvertModel.get_integer; cbn [apply load_int]. rewrite E'. auto.
  - unfold store_int. destruct (narrow_cast true int64 (Int s n) v) as [r|] eqn:E; auto.
    apply narrow_debug in E; auto. tauto.
Qed.
(* reading as a type too small gives some other number, unless the checks are on *)
Theorem C54_truncated : forall s n v, 1 < n <= 64 -> in_range int64 v -> ~ in_range (Int s n) v ->
  load_int true (Int s n) (get_integer (VInteger v)) = None /\
  exists r, load_int false (Int s n) (get_integer (VInteger v)) = Some (Some r) /\ r <> v.
Proof.
  intros s n v N R H. assert (P : proper (Int s n)) by (simpl; lia). assert (P64 : proper int64) by (simpl; lia).
  unfold ConvertModel.get_integer; cbn [apply load_int]. split.
  - rewrite (proj2 (C25_rejects (Int s n) int64 v P P64 R)); auto.
  - exists (cast (Int s n) v). split; auto. intros E. apply H. rewrite <- E. apply cast_range; auto.
Qed.

(* C55: exactly these reads succeed, with these results *)
Theorem C55_reads : forall v,
  (forall z, get_integer v = Some z <-> as_integer exact v z) /\
  (forall b, get_boolean v = Some b <-> as_boolean v b) /\
  (forall s, get_string v = Some s <-> as_text real_to_string v s).
Proof.
  intros v. unfold ConvertModel.get_integer, ConvertModel.get_string, ConvertModel.get_boolean.
  destruct v as [|z|r|b|s|c]; cbn [apply]; (split; [|split]); intros x; split; intros H;
    try discriminate; try (inversion H; fail); try (injection H as <-); try (constructor; fail); try (inversion H; subst; reflexivity).
  - destruct (Z.eqb_spec z 0) as [->|N]; constructor; auto.
  - inversion H as [|E|? N E|]; subst; [reflexivity|]. apply Z.eqb_neq in N. rewrite N. reflexivity.
  - destruct (exact r) eqn:E; [|discriminate]. injection H as <-. constructor; exact E.
  - inversion H as [| | |? ? E|]; subst. rewrite E. reflexivity.
  - destruct b; constructor.
  - destruct (int_of_string s) eqn:E; [|discriminate]. injection H as <-. constructor; exact E.
  - inversion H as [| | | |? ? E]; subst. rewrite E. reflexivity.
  - destruct (bool_of_string s) eqn:E; [|discriminate]. injection H as <-. constructor; exact E.
  - inversion H as [| | |? ? E]; subst. rewrite E. reflexivity.
Qed.
(* C55: integers and booleans kept as text (by a text backend) and kept as such
   read alike as integers and strings ... *)
Theorem C55_text_backend : forall z b, int_min <= z <= int_max ->
  get_integer (VString (int_to_string z)) = get_integer (VInteger z) /\
  get_string (VString (int_to_string z)) = get_string (VInteger z) /\
  get_boolean (VString (bool_to_string b)) = get_boolean (VBoolean b) /\
  get_string (VString (bool_to_string b)) = get_string (VBoolean b) /\
  get_integer (VString (bool_to_string b)) = get_integer (VBoolean b).
Proof.
  intros z b H. unfold ConvertModel.get_integer, ConvertModel.get_string, ConvertModel.get_boolean; cbn [apply].
  rewrite (round_trip_plain z H).
  repeat split; auto; destruct b; reflexivity.
Qed.
(* ... but as booleans only 0 and 1 do *)
Theorem C55_text_boolean : forall z, int_min <= z <= int_max ->
  (get_boolean (VString (int_to_string z)) = get_boolean (VInteger z) <-> z = 0 \/ z = 1).
Proof.
  intros z H. split.
  - intros E. unfold ConvertModel.get_boolean in E; cbn [apply] in E. destruct (bool_of_string (int_to_string z)) as [b|] eqn:B; [|discriminate].
    apply bool_of_string_iff in B. destruct B as (l & w & r & p & S & Bl & Br & Hp & Sw).
    (* a numeral that is a word is 0 or 1 *)
    pose proof (round_trip_plain z H) as I.
    destruct (literal_head _ _ (int_literal z)) as [NE NH]. specialize (NH []). rewrite app_nil_r in NH. rewrite S in NH.
    assert (l = []) by (destruct Bl; auto; cbn in NH; congruence). subst l. cbn [app] in *.
    pose proof (int_literal z) as L. rewrite S in L.
    assert (Hw : In (map lower w) (words b)) by (apply lower_word; eauto).
    assert (D : exists c t, w = c :: t /\ (digit c < 10 \/ c = "-"%char \/ c = "+"%char)).
    { destruct (word_head w b r Hw) as [Nw _]. destruct w as [|c t]; [contradiction|]. exists c, t. split; auto.
      inversion L as [? ? U|? ? U EE|? ? U EE]; subst; auto. destruct (unsigned_head _ _ U) as (c' & t' & E' & D').
      cbn in E'. injection E' as <- _. auto. }
    destruct D as (c & t & -> & D).
    assert (Low : lower c = c).
    { destruct D as [D|[->| ->]]; try reflexivity. apply lower_low. pose proof (digit_dec _ D). lia. }
    assert (W : c :: t = chars (if b then "1" else "0")%string).
    { cbn [map] in Hw. rewrite Low in Hw.
      destruct b; cbn in Hw; repeat (destruct Hw as [Hw|Hw]; [injection Hw as <- Ht;
        try (destruct t; [reflexivity|discriminate]); destruct D as [D|[D|D]]; vm_compute in D; discriminate|]); contradiction. }
    rewrite S in I. rewrite W in I.
    assert (I2 : int_of_string (chars (if b then "1" else "0") ++ r) = Some (if b then 1 else 0)).
    { apply int_of_string_iff. left. exists [], (chars (if b then "1" else "0")%string), r, (if b then 1 else 0).
      split; [reflexivity|]. split; [constructor|]. split; auto. split.
      - destruct b; [exact (int_literal 1)|exact (int_literal 0)].
      - left. unfold int_min, int_max. destruct b; lia. }
    rewrite I2 in I. injection I as <-. destruct b; auto.
  - intros [->| ->]; reflexivity.
Qed.
End Values.
Example C54_uint64 : @store_int unit unit false (Int false 64) (2 ^ 64 - 1) = Some (VInteger (-1)) /\
  load_int false (Int false 64) (Some (-1)) = Some (Some (2 ^ 64 - 1)) /\ @store_int unit unit true (Int false 64) (2 ^ 64 - 1) = None.
Proof. repeat split. Qed.
Example C54_small : in_range int64 300 /\ ~ in_range (Int false 8) 300.
Proof. simpl. lia. Qed.
Example C55_two : bool_of_string (int_to_string 2) = None /\
  @get_boolean unit unit (fun _ => None) (fun _ => tt) (fun _ => []) (fun _ => None) (VInteger 2) = Some true.
Proof. repeat split. Qed.

Print Assumptions C36_integer_strings.
Print Assumptions C36_characters.
Print Assumptions C36_round_trip.
Print Assumptions C36_blank_refuted.
Print Assumptions C36_overflow_refuted.
Print Assumptions C36_leading_zero_refuted.
Print Assumptions C37_boolean_strings.
Print Assumptions C37_letters.
Print Assumptions C37_round_trip.
Print Assumptions C37_one_meaning.
Print Assumptions C25_narrow_cast.
Print Assumptions C25_rejects.
Print Assumptions C25_release.
Print Assumptions C54_typed_release.
Print Assumptions C54_typed_debug.
Print Assumptions C54_truncated.
Print Assumptions C55_reads.
Print Assumptions C55_text_backend.
Print Assumptions C55_text_boolean.
