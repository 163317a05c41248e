From Coq Require Import String Ascii List Bool Arith NArith ZArith Lia.
From Verif Require Import ConvertModel ConfigModel BackModel TextModel TextSpec.
Import ListNotations.
Local Open Scope nat_scope.

(* ---- NUL ---- *)
Lemma nul_eqb c : Ascii.eqb c nul = true <-> c = nul.
Proof. apply Ascii.eqb_eq. Qed.
Lemma c_str_first t : first_part t (c_str t).
Proof.
  induction t as [|c t [IH1 IH2]]; [split; [intros []|left; reflexivity]|]. cbn [c_str].
  destruct (Ascii.eqb c nul) eqn:E.
  - apply nul_eqb in E. subst. split; [intros []|]. right. exists t. reflexivity.
  - split.
    + intros [H|H]; [subst; rewrite Ascii.eqb_refl in E; discriminate|contradiction].
    + destruct IH2 as [IH2 | [r IH2]]; [left; exact (f_equal (cons c) IH2)|right; exists r; exact (f_equal (cons c) IH2)].
Qed.
Lemma c_str_none t : no_nul t -> c_str t = t.
Proof.
  intro H. destruct (c_str_first t) as [_ [E | [r E]]]; [auto|]. exfalso. apply H. rewrite E. apply in_or_app. right. left. reflexivity.
Qed.
Lemma c_str_cut u r : no_nul u -> c_str (u ++ nul :: r) = u.
Proof.
  induction u as [|c u IH]; intro H; cbn [app c_str]; [rewrite Ascii.eqb_refl; reflexivity|].
  destruct (Ascii.eqb c nul) eqn:E; [apply nul_eqb in E; subst; exfalso; apply H; left; reflexivity|].
  rewrite IH; auto. intro X. apply H. right. exact X.
Qed.
Lemma first_c_str t u : first_part t u -> c_str t = u.
Proof. intros [N [-> | [r ->]]]; [apply c_str_none; auto|apply c_str_cut; auto]. Qed.
Lemma c_str_idem t : c_str (c_str t) = c_str t.
Proof. apply c_str_none. apply c_str_first. Qed.
Lemma upto_cut u r : no_nul u -> upto_nul (u ++ nul :: r) = Some u.
Proof.
  induction u as [|c u IH]; intro H; cbn [app upto_nul]; [rewrite Ascii.eqb_refl; reflexivity|].
  destruct (Ascii.eqb c nul) eqn:E; [apply nul_eqb in E; subst; exfalso; apply H; left; reflexivity|].
  rewrite IH; [reflexivity|]. intro X. apply H. right. exact X.
Qed.
Lemma upto_end t : upto_nul (t ++ [nul]) = Some (c_str t).
Proof.
  destruct (c_str_first t) as [N [E | [r E]]].
  - rewrite E at 1. apply upto_cut. exact N.
  - rewrite E at 1. rewrite <- app_assoc. cbn [app]. apply upto_cut. exact N.
Qed.
Lemma upto_c_str t u : upto_nul t = Some u -> c_str t = u.
Proof.
  revert u. induction t as [|c t IH]; intros u E; [discriminate|]. cbn [upto_nul c_str] in *.
  destruct (Ascii.eqb c nul); [congruence|]. destruct (upto_nul t) as [v|]; [|discriminate]. injection E as <-. rewrite (IH v); auto.
Qed.
Lemma c_str_repeat t k : c_str (t ++ repeat nul k) = c_str t.
Proof.
  destruct k; [cbn; rewrite app_nil_r; reflexivity|]. cbn [repeat].
  destruct (c_str_first t) as [N [E | [r E]]].
  - rewrite E at 1. apply c_str_cut. exact N.
  - rewrite E at 1. rewrite <- app_assoc. cbn [app]. apply c_str_cut. exact N.
Qed.

(* ---- streams ---- *)
Lemma unix_lines t : lines_read t (unix t).
Proof.
  assert (H : forall n t, length t <= n -> lines_read t (unix t)).
  { induction n as [|n IH]; intros [|a [|b r]] L; cbn in L; try lia; try constructor; auto.
    - intros [_ [r E]]. discriminate.
    - constructor.
    - cbn [unix]. destruct (Ascii.eqb a cr && Ascii.eqb b lf) eqn:E.
      + apply andb_prop in E as [E1 E2]. apply Ascii.eqb_eq in E1, E2. subst. constructor. apply IH. cbn in L. lia.
      + constructor; [|apply IH; cbn in *; lia]. intros [-> [r' E']]. injection E' as -> ->. discriminate. }
  exact (H (length t) t (le_n _)).
Qed.
Lemma lines_unique t u : lines_read t u -> u = unix t.
Proof.
  induction 1 as [|t u H IH|c t u N H IH]; [reflexivity| |].
  - subst. reflexivity.
  - subst. destruct t as [|b r]; [reflexivity|]. cbn [unix]. destruct (Ascii.eqb c cr && Ascii.eqb b lf) eqn:E; [|reflexivity].
    apply andb_prop in E as [E1 E2]. apply Ascii.eqb_eq in E1, E2. subst. exfalso. apply N. split; [reflexivity|]. exists r. reflexivity.
Qed.
Lemma unix_shorter t : length (unix t) <= length t.
Proof.
  assert (H := unix_lines t). induction H; cbn; lia.
Qed.
Lemma ahead_shorter s : length (ahead s) <= length (bytes s) - pos s.
Proof. unfold ahead. rewrite <- skipn_length. destruct (translates s); [apply unix_shorter|lia]. Qed.
Lemma good_bits s : good s = true -> eofbit s = false /\ failbit s = false.
Proof. unfold good. destruct (eofbit s), (failbit s); auto; discriminate. Qed.
Lemma sentry_good s : good s = true -> sentry s = s.
Proof. intro G. unfold sentry. rewrite G. reflexivity. Qed.
Lemma tellg_good s : good s = true -> seekable s = true -> tellg s = (Some (pos s), s).
Proof. intros G K. unfold tellg. rewrite sentry_good, K by auto. destruct (good_bits s G) as [_ ->]. reflexivity. Qed.
Lemma seekg_good s q : good s = true -> seekable s = true -> seekg s (Some q) = with_state s q false false.
Proof.
  intros G K. destruct (good_bits s G) as [Ge Gf]. unfold seekg. rewrite Gf.
  rewrite (sentry_good (with_state s (pos s) false false)) by reflexivity. cbn [with_state failbit seekable]. rewrite K. reflexivity.
Qed.
Lemma content_good s : good s = true -> seekable s = true -> pos s <= length (bytes s) ->
  get_text_stream_content s = (ahead s ++ repeat nul (length (bytes s) - pos s - length (ahead s)),
    with_state s (length (bytes s)) (0 <? length (bytes s) - pos s - length (ahead s)) (0 <? length (bytes s) - pos s - length (ahead s))).
Proof.
  intros G K P. assert (A := ahead_shorter s).
  unfold get_text_stream_content, seek_end. rewrite tellg_good, seekg_good by auto.
  rewrite tellg_good by auto. cbn [with_state pos]. rewrite seekg_good by auto.
  assert (E : with_state (with_state s (length (bytes s)) false false) (pos s) false false = s).
  { destruct (good_bits s G) as [Ge Gf]. destruct s; cbn in *. subst. reflexivity. }
  change (IStream (bytes s) (length (bytes s)) false false (seekable s) (translates s)) with (with_state s (length (bytes s)) false false).
  rewrite E. unfold read_n. rewrite sentry_good, G by auto. destruct (good_bits s G) as [Ge Gf]. rewrite Ge, Gf.
  destruct (Nat.leb_spec (length (bytes s) - pos s) (length (ahead s))) as [L|L].
  - assert (X : length (bytes s) - pos s = length (ahead s)) by lia. rewrite X.
    rewrite firstn_all, Nat.eqb_refl, Nat.sub_diag. cbn [repeat]. rewrite app_nil_r. reflexivity.
  - destruct (Nat.ltb_spec 0 (length (bytes s) - pos s - length (ahead s))); [|lia]. reflexivity.
Qed.
Definition failed (p : nat) (s : istream) : Prop := failbit s = true /\ pos s = p.
Lemma failed_sentry p s : failed p s -> failed p (sentry s).
Proof. intros [F E]. unfold sentry. destruct (good s); split; auto. Qed.
Lemma failed_tellg p s : failed p s -> exists s', tellg s = (None, s') /\ failed p s'.
Proof.
  intro H. exists (sentry s). assert (K := failed_sentry p s H). split; [|exact K]. unfold tellg. rewrite (proj1 K). reflexivity.
Qed.
Lemma failed_seekg p s q : failed p s -> failed p (seekg s q).
Proof.
  intros [F E]. unfold seekg.
  assert (K : failed p (sentry (with_state s (pos s) false (failbit s)))) by (apply failed_sentry; split; auto).
  destruct K as [K1 K2]. rewrite K1. split; auto.
Qed.
Lemma failed_read p s : failed p s -> exists s', read_n s 0 = ([], s') /\ failed p s'.
Proof.
  intro H. exists (sentry s). assert (K := failed_sentry p s H). split; [|exact K]. unfold read_n.
  assert (G : good (sentry s) = false) by (unfold good; rewrite (proj1 K), andb_false_r; reflexivity). rewrite G. reflexivity.
Qed.
Lemma not_seekable s : good s = true -> seekable s = false -> exists s1, tellg s = (None, s1) /\ failed (pos s) (seek_end s1).
Proof.
  intros G K. exists s. unfold tellg. rewrite sentry_good, K by auto. destruct (good_bits s G) as [Ge Gf]. rewrite Gf.
  split; [reflexivity|]. unfold seek_end, seekg. rewrite Gf, (sentry_good (with_state s (pos s) false false)) by reflexivity.
  cbn [with_state failbit seekable]. rewrite K. split; reflexivity.
Qed.
Lemma content_bad s : good s = false \/ seekable s = false ->
  fst (get_text_stream_content s) = [] /\ failbit (snd (get_text_stream_content s)) = true /\ pos (snd (get_text_stream_content s)) = pos s.
Proof.
  intro H. assert (X : exists s1, tellg s = (None, s1) /\ failed (pos s) (seek_end s1)).
  { destruct (good s) eqn:G.
    - apply not_seekable; auto. destruct H; [discriminate|assumption].
    - exists (sentry s). assert (K : failed (pos s) (sentry s)) by (unfold sentry; rewrite G; split; reflexivity).
      split; [unfold tellg; rewrite (proj1 K); reflexivity|]. apply failed_seekg. exact K. }
  destruct X as (s1 & E1 & F1). unfold get_text_stream_content. rewrite E1.
  destruct (failed_tellg _ _ F1) as (s2 & -> & F2).
  destruct (failed_read _ _ (failed_seekg _ _ None F2)) as (s3 & -> & F3). destruct F3. auto.
Qed.

Lemma sentry_bytes s : bytes (sentry s) = bytes s.
Proof. unfold sentry. destruct (good s); reflexivity. Qed.
Lemma seekg_bytes s q : bytes (seekg s q) = bytes s.
Proof.
  unfold seekg. assert (B := sentry_bytes (with_state s (pos s) false (failbit s))).
  destruct (failbit (sentry (with_state s (pos s) false (failbit s)))), q; try exact B.
  destruct (seekable (sentry (with_state s (pos s) false (failbit s)))); exact B.
Qed.
Lemma read_bytes s n : bytes (snd (read_n s n)) = bytes s.
Proof. unfold read_n. rewrite <- (sentry_bytes s). destruct (good (sentry s)), (n <=? length (ahead (sentry s))); reflexivity. Qed.
Lemma content_bytes s : bytes (snd (get_text_stream_content s)) = bytes s.
Proof.
  unfold get_text_stream_content, tellg. rewrite read_bytes, seekg_bytes, sentry_bytes. unfold seek_end. rewrite seekg_bytes. apply sentry_bytes.
Qed.

(* ---- printing ---- *)
Section J.
Variable P : json -> Prop.
Hypothesis Hs : forall j, (forall l, j <> JArr l) -> (forall l, j <> JObj l) -> P j.
Hypothesis Ha : forall l, Forall P l -> P (JArr l).
Hypothesis Ho : forall l, Forall (fun e => P (snd e)) l -> P (JObj l).
Fixpoint json_all (j : json) : P j.
Proof.
  destruct j eqn:E; try (apply Hs; intros l E2; discriminate).
  - apply Ha. clear E. induction l as [|x r IH]; constructor; [apply json_all|exact IH].
  - apply Ho. clear E. induction l as [|[k x] r IH]; constructor; [apply json_all|exact IH].
Defined.
End J.
Section Woven.
Variable layout : ascii -> Prop.
Lemma woven_app ts us a b : woven layout ts a -> woven layout us b -> woven layout (ts ++ us) (a ++ b).
Proof. intro H. revert b. induction H; intros b Hb; [exact Hb|]. cbn [app]. rewrite <- !app_assoc. constructor; auto. Qed.
Lemma woven_one t : woven layout [t] t.
Proof. replace t with ([] ++ t ++ [])%list at 2 by (rewrite app_nil_r; reflexivity). constructor; constructor. Qed.
Lemma woven_before w ts a : ts <> [] -> Forall layout w -> woven layout ts a -> woven layout ts (w ++ a).
Proof.
  intros N F H. destruct H as [|v t ts text Fv H]; [congruence|]. rewrite app_assoc. constructor; [apply Forall_app; auto|exact H].
Qed.
End Woven.
Lemma tokens_some scalar quoted j : tokens scalar quoted j <> [].
Proof. destruct j; cbn; discriminate. Qed.
Section Dump.
Variable scalar : json -> str.
Variable quoted : str -> str.
Variables (pretty : bool) (step : N) (f : ascii).
Variable layout : ascii -> Prop.
Hypothesis allowed : pretty = true -> layout lf /\ layout space /\ layout f.
Let margin n := if pretty then repeat f (N.to_nat n) else [].
Let line := if pretty then [lf] else [].
Lemma margin_layout n : Forall layout (margin n).
Proof. unfold margin. destruct pretty; [|constructor]. apply Forall_forall. intros x X. apply repeat_spec in X. subst. apply allowed. reflexivity. Qed.
Lemma line_layout : Forall layout line.
Proof. unfold line. destruct pretty; [|constructor]. constructor; [apply allowed; reflexivity|constructor]. Qed.
Lemma spread_woven : forall (l : list str) (ts : list (list str)), Forall2 (woven layout) ts l -> Forall (fun t => t <> []) ts -> 
  woven layout (listed ts) (spread (chars "," ++ line) l).
Proof.
  intros l ts H N. destruct H as [|t a ts l H0 H]; [constructor|]. cbn [spread listed]. inversion N; subst.
  apply woven_app; [exact H0|]. match goal with F : Forall _ ts |- _ => revert F end. clear -H allowed. induction H as [|t' b ts l H1 H IH]; intro N; [constructor|].
  cbn [flat_map]. inversion N; subst. apply (woven_app layout (comma :: t') _ ((chars "," ++ line) ++ b) _).
  - rewrite <- app_assoc. apply (woven_app layout [comma] t'); [apply woven_one|]. apply woven_before; auto. apply line_layout.
  - apply IH. assumption.
Qed.
Lemma dump_woven j : forall cur, woven layout (tokens scalar quoted j) (dump scalar quoted pretty step f cur j).
Proof.
  induction j as [j Na No|l IH|l IH] using json_all; intro cur.
  - destruct j; try (exfalso; eapply Na; reflexivity); try (exfalso; eapply No; reflexivity); cbn [tokens dump]; apply woven_one.
  - destruct l as [|x l]; [cbn; apply (woven_app layout [_] [_] ["["%char] ["]"%char]); apply woven_one|].
    cbn [tokens]. 
    change (dump scalar quoted pretty step f cur (JArr (x :: l))) with
      (chars "[" ++ line ++ spread (chars "," ++ line) (map (fun x => margin (cur + step) ++ dump scalar quoted pretty step f (cur + step) x) (x :: l)) ++ line ++ margin cur ++ chars "]").
    apply (woven_app layout [_]); [apply woven_one|]. rewrite app_assoc. apply woven_app.
    + apply woven_before; [|apply line_layout|].
      * cbn [map listed]. intro E. apply app_eq_nil in E as [E _]. exact (tokens_some _ _ _ E).
      * apply spread_woven.
        -- clear -IH allowed. induction IH as [|y l' Hy IH IH2]; constructor; [|exact IH2].
           apply woven_before; [apply tokens_some|apply margin_layout|apply Hy].
        -- apply Forall_forall. intros t T. apply in_map_iff in T as (y & <- & _). apply tokens_some.
    + apply woven_before; [discriminate|apply line_layout|]. apply woven_before; [discriminate|apply margin_layout|apply woven_one].
  - destruct l as [|[k x] l]; [cbn; apply (woven_app layout [_] [_] ["{"%char] ["}"%char]); apply woven_one|].
    cbn [tokens]. 
    change (dump scalar quoted pretty step f cur (JObj ((k, x) :: l))) with
      (chars "{" ++ line ++ spread (chars "," ++ line) (map (fun e => match e with (k, x) => margin (cur + step) ++ quoted k ++ (if pretty then chars ": " else chars ":") ++ dump scalar quoted pretty step f (cur + step) x end) ((k, x) :: l)) ++ line ++ margin cur ++ chars "}").
    apply (woven_app layout [_]); [apply woven_one|]. rewrite app_assoc. apply woven_app.
    + apply woven_before; [|apply line_layout|].
      * cbn [map listed]. intro E. apply app_eq_nil in E as [E _]. discriminate.
      * apply spread_woven.
        -- clear -IH allowed. induction IH as [|[k' y] l' Hy IH IH2]; constructor; [|exact IH2]. cbn [snd] in Hy.
           apply woven_before; [discriminate|apply margin_layout|].
           apply (woven_app layout [quoted k']); [apply woven_one|].
           assert (W : woven layout ([colon] ++ tokens scalar quoted y) (chars ":" ++ (if pretty then [space] else []) ++ dump scalar quoted pretty step f (cur + step) y)).
           { apply woven_app; [apply woven_one|]. apply woven_before; [apply tokens_some| |apply Hy].
             destruct pretty; constructor; [apply allowed; reflexivity|constructor]. }
           destruct pretty; exact W.
        -- apply Forall_forall. intros t T. apply in_map_iff in T as ([k' y] & <- & _). discriminate.
    + apply woven_before; [discriminate|apply line_layout|]. apply woven_before; [discriminate|apply margin_layout|apply woven_one].
Qed.
End Dump.

Lemma woven_tight ts a : woven (fun _ => False) ts a -> a = concat ts.
Proof. induction 1 as [|w t ts text F H IH]; [reflexivity|]. destruct F; [|contradiction]. cbn. congruence. Qed.

(* ---- reading ---- *)
Lemma ahead_rest s t : rest_read (translates s) (skipn (pos s) (bytes s)) t -> ahead s = t.
Proof. unfold rest_read, ahead. destruct (translates s); intro H; [symmetry; apply lines_unique; exact H|auto]. Qed.
Lemma stream_text s t : good s = true -> seekable s = true -> pos s <= length (bytes s) ->
  rest_read (translates s) (skipn (pos s) (bytes s)) t -> exists k, fst (get_text_stream_content s) = t ++ repeat nul k.
Proof. intros G K P R. rewrite content_good, (ahead_rest s t R) by auto. eexists. reflexivity. Qed.
Section Reads.
Context {C : Type}.
Variable json_parse : str -> option C.
Variable xml_parse : str -> option C.
Variable yaml_load : str -> yaml_result C.
Variable ini_parse : str -> option C.
Let rd := read json_parse xml_parse yaml_load ini_parse.
Lemma c_text_first t u (X : first_part t u) : xml_text xml_parse t = xml_text xml_parse u /\ ini_text ini_parse t = ini_text ini_parse u.
Proof.
  unfold xml_text, ini_text. rewrite (first_c_str t u X), (c_str_none u) by (apply X). auto.
Qed.
Lemma ini_end t : of_bytes (c_string (Some (t ++ [nul]))) (ini_text ini_parse) = ini_text ini_parse t.
Proof. unfold c_string. rewrite upto_end. unfold of_bytes, ini_text. rewrite c_str_idem. reflexivity. Qed.
Lemma span_front (t more : str) : span (Some (t ++ more)) (length t) = Some t.
Proof.
  unfold span. rewrite app_length. destruct (Nat.leb_spec (length t) (length t + length more)); [|lia].
  rewrite firstn_app, Nat.sub_diag, firstn_all. cbn. rewrite app_nil_r. reflexivity.
Qed.
Lemma first_pad t u k : first_part t u -> first_part (t ++ repeat nul k) u.
Proof.
  intros [N [-> | [r ->]]]; (split; [exact N|]).
  - destruct k; [left; cbn; apply app_nil_r|right; eexists; reflexivity].
  - right. exists (r ++ repeat nul k). rewrite <- app_assoc. reflexivity.
Qed.
Lemma after_read s : pos s <= length (bytes s) ->
  let s' := snd (get_text_stream_content s) in
  fst (get_text_stream_content s') = [] /\ pos s' <= length (bytes s').
Proof.
  intro P. cbv zeta.
  assert (B : bytes (snd (get_text_stream_content s)) = bytes s) by apply content_bytes.
  destruct (good s && seekable s) eqn:E.
  - apply andb_prop in E as [G K]. rewrite (content_good s G K P). cbn [snd].
    set (k := 0 <? length (bytes s) - pos s - length (ahead s)). destruct k eqn:Ek.
    + split; [|cbn; lia]. apply content_bad. left. reflexivity.
    + split; [|cbn; lia]. rewrite content_good by (try reflexivity; try exact K; cbn; lia). cbn [fst with_state pos bytes].
      assert (A := ahead_shorter (with_state s (length (bytes s)) false false)). cbn [with_state pos bytes] in A.
      rewrite Nat.sub_diag in *. destruct (ahead (IStream (bytes s) (length (bytes s)) false false (seekable s) (translates s))) eqn:Ea.
      * unfold with_state. rewrite Ea. reflexivity.
      * unfold with_state in A. rewrite Ea in A. cbn in A. lia.
  - assert (H : good s = false \/ seekable s = false) by (destruct (good s); [right|left]; auto).
    destruct (content_bad s H) as (_ & F & Q). split; [|rewrite Q, B; exact P].
    apply content_bad. left. unfold good. rewrite F, andb_false_r. reflexivity.
Qed.
Lemma reads_after n s : fst (get_text_stream_content s) = [] -> pos s <= length (bytes s) ->
  ini_reads ini_parse n s = repeat (ini_text ini_parse []) n.
Proof.
  revert s. induction n as [|n IH]; intros s E P; [reflexivity|]. cbn [ini_reads repeat].
  assert (A := after_read s P). destruct (get_text_stream_content s) as [t s'] eqn:Et. cbn [fst snd] in *. subst t.
  rewrite ini_end. f_equal. apply IH; apply A.
Qed.
End Reads.
