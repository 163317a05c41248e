(* Proofs about ActorPathModel. *)
From Coq Require Import List Bool Arith Ascii String Lia.
From Verif Require Import ActorPathModel.
Import ListNotations.
Local Notation length := List.length.

Lemma is_slash_spec c : reflect (c = slash) (is_slash c).
Proof. unfold is_slash. apply Ascii.eqb_spec. Qed.
Lemma is_slash_refl : is_slash slash = true. Proof. reflexivity. Qed.

Lemma find_slash_app s t : slash_free s -> find_slash (s ++ slash :: t) = (s, slash :: t).
Proof.
  induction s as [|c s IH]; intros H; [reflexivity|]. change (find_slash (c :: (s ++ slash :: t)) = (c :: s, slash :: t)).
  cbn [find_slash].
  destruct (is_slash_spec c) as [->|N]; [exfalso; apply H; left; reflexivity|].
  rewrite IH; [reflexivity|]. intros G; apply H; right; exact G.
Qed.
Lemma find_slash_end s : slash_free s -> find_slash s = (s, []).
Proof.
  induction s as [|c s IH]; intros H; [reflexivity|]. cbn [find_slash].
  destruct (is_slash_spec c) as [->|N]; [exfalso; apply H; left; reflexivity|].
  rewrite IH; [reflexivity|]. intros G; apply H; right; exact G.
Qed.
Lemma find_slash_inv s a b : find_slash s = (a, b) -> s = a ++ b /\ slash_free a /\ (b = [] \/ exists t, b = slash :: t).
Proof.
  revert a b; induction s as [|c s IH]; intros a b E; cbn [find_slash] in E.
  - inversion E; subst. repeat split; auto. intros [].
  - destruct (is_slash_spec c) as [->|N].
    + inversion E; subst. repeat split; [intros []|]. right. eauto.
    + destruct (find_slash s) as [a' b']. inversion E; subst. destruct (IH a' b eq_refl) as (-> & H & D).
      repeat split; auto. intros [G|G]; [congruence|exact (H G)].
Qed.

Lemma str_to_scope_to_str s : str_to_scope (scope_to_str s) = s.
Proof. destruct s; vm_compute; reflexivity. Qed.
Lemma str_eqb_spec a b : reflect (a = b) (str_eqb a b).
Proof. unfold str_eqb. destruct (list_eq_dec ascii_dec a b); constructor; assumption. Qed.
Lemma str_to_scope_inv n s : str_to_scope n = s -> s <> unknown -> n = scope_to_str s.
Proof.
  unfold str_to_scope. cbn [find].
  repeat match goal with |- context [str_eqb n ?x] => destruct (str_eqb_spec n x) end; intros <-; congruence.
Qed.
Lemma scope_slash_free s : slash_free (scope_to_str s).
Proof. destruct s; unfold slash_free; vm_compute; intuition congruence. Qed.

Lemma equal_prefix_app r t : equal_prefix r (r ++ t) = Some true.
Proof. induction r as [|c r IH]; simpl; [reflexivity|]. rewrite Ascii.eqb_refl. exact IH. Qed.
Lemma equal_prefix_inv r p : equal_prefix r p = Some true -> exists t, p = r ++ t.
Proof.
  revert p; induction r as [|c r IH]; intros p E; simpl in E; [exists p; reflexivity|].
  destruct p as [|d p]; [discriminate|]. destruct (Ascii.eqb_spec c d) as [->|]; [|discriminate].
  destruct (IH _ E) as (t & ->). exists t; reflexivity.
Qed.
Lemma skipn_app_exact {A} (a b : list A) : skipn (length a) (a ++ b) = b.
Proof. induction a; simpl; auto. Qed.

Lemma decode_names_fuel f s : length s <= f -> exists l, decode_names f s = Some l.
Proof.
  revert s; induction f as [|f IH]; intros s L; destruct s as [|c s]; simpl in *; try (eexists; reflexivity); [lia|].
  destruct (find_slash s) as [a b] eqn:E. apply find_slash_inv in E. destruct E as (-> & _ & _).
  rewrite app_length in L. destruct (IH b) as (l & ->); [lia|]. eexists; reflexivity.
Qed.

Lemma decode_names_join names f :
  names <> [] -> Forall (fun n => n <> [] /\ slash_free n) names -> length (slash :: join names) <= f ->
  decode_names f (slash :: join names) = Some names.
Proof.
  intros Hne H; revert f Hne; induction H as [|x r [Hx Hs] Hr IH]; intros f Hne L; [congruence|].
  destruct f as [|f]; [simpl in L; lia|]. 
  assert (Hn : nonempty x = true) by (destruct x; [congruence|reflexivity]).
  destruct r as [|y r].
  - cbn [decode_names join]. rewrite find_slash_end by exact Hs. destruct f; simpl; rewrite Hn; reflexivity.
  - change (join (x :: y :: r)) with (x ++ slash :: join (y :: r)) in *. cbn [decode_names].
    rewrite find_slash_app by exact Hs. rewrite IH; [rewrite Hn; reflexivity|discriminate|].
    change (length (slash :: x ++ slash :: join (y :: r))) with (S (length (x ++ slash :: join (y :: r)))) in L.
    rewrite app_length in L. lia.
Qed.

Lemma parce_show sys sc names :
  slash_free sys -> sc <> unknown -> names <> [] -> Forall (fun n => n <> [] /\ slash_free n) names ->
  parce (show sys sc names) false = Accept (Elements sys sc names).
Proof.
  intros Hs Hsc Hne H. unfold parce, show. rewrite equal_prefix_app, skipn_app_exact.
  change (sys ++ [slash] ++ scope_to_str sc ++ [slash] ++ join names) with (sys ++ slash :: (scope_to_str sc ++ slash :: join names)).
  rewrite find_slash_app by exact Hs.
  rewrite find_slash_app by apply scope_slash_free.
  rewrite str_to_scope_to_str.
  rewrite decode_names_join; [|exact Hne|exact H|lia].
  destruct names; [congruence|]. destruct sc; try reflexivity. congruence.
Qed.
Lemma parce_show_header sys sc rest :
  slash_free sys -> sc <> unknown -> (rest = [] \/ exists t, rest = slash :: t) ->
  parce (path_root ++ sys ++ [slash] ++ scope_to_str sc ++ rest) true = Accept (Elements sys sc []).
Proof.
  intros Hs Hsc Hr. unfold parce. rewrite equal_prefix_app, skipn_app_exact.
  change (sys ++ [slash] ++ scope_to_str sc ++ rest) with (sys ++ slash :: (scope_to_str sc ++ rest)).
  rewrite find_slash_app by exact Hs.
  assert (E : exists x, find_slash (scope_to_str sc ++ rest) = (scope_to_str sc, x)).
  { destruct Hr as [->|(t & ->)].
    - rewrite app_nil_r, find_slash_end by apply scope_slash_free. eauto.
    - rewrite find_slash_app by apply scope_slash_free. eauto. }
  destruct E as (x & ->). rewrite str_to_scope_to_str. destruct sc; try reflexivity. congruence.
Qed.

(* validity in the sense of the constructor *)
Lemma valid_char_not_slash c : is_valid_char c = true -> c <> slash.
Proof. intros H ->. discriminate. Qed.
Lemma valid_system_slash_free n : is_valid_system_name n = true -> slash_free n.
Proof.
  unfold is_valid_system_name. rewrite andb_true_iff. intros [_ H] G. rewrite forallb_forall in H.
  apply (valid_char_not_slash _ (H _ G)). reflexivity.
Qed.
Lemma valid_name_ok n : is_valid_actor_name n = true -> n <> [] /\ slash_free n /\ forallb is_graph n = true.
Proof.
  unfold is_valid_actor_name. rewrite andb_true_iff. intros [Hn H]. rewrite forallb_forall in H. repeat split.
  - destruct n; discriminate.
  - intros G. specialize (H _ G). rewrite is_slash_refl, andb_false_r in H. discriminate.
  - apply forallb_forall. intros c Hc. specialize (H c Hc). apply andb_true_iff in H. apply H.
Qed.
Lemma join_valid names : names <> [] -> Forall (fun n => is_valid_actor_name n = true) names -> is_valid_actor_path (join names) = true.
Proof.
  intros Hne H. induction H as [|x r Hx Hr IH]; [congruence|]. apply valid_name_ok in Hx. destruct Hx as (Hx & Hs & Hg).
  destruct r as [|y r].
  - simpl. unfold is_valid_actor_path. rewrite Hg. destruct x; [congruence|reflexivity].
  - change (join (x :: y :: r)) with (x ++ slash :: join (y :: r)). specialize (IH ltac:(discriminate)).
    unfold is_valid_actor_path in *. apply andb_true_iff in IH. destruct IH as [_ IH].
    rewrite forallb_app, Hg. cbn [forallb]. rewrite IH. destruct x; [congruence|reflexivity].
Qed.
Lemma build_parce sys sc names :
  is_valid_system_name sys = true -> sc <> unknown -> names <> [] ->
  Forall (fun n => is_valid_actor_name n = true) names ->
  exists p, build sys sc (join names) = Some p /\ parce p false = Accept (Elements sys sc names).
Proof.
  intros Hs Hsc Hne H. exists (show sys sc names). split.
  - unfold build. rewrite Hs, join_valid by assumption. reflexivity.
  - apply parce_show; try assumption; [apply valid_system_slash_free; exact Hs|].
    eapply Forall_impl; [|exact H]. intros n Hn. apply valid_name_ok in Hn. tauto.
Qed.
Lemma build_injective sys sc names sys' sc' names' p :
  sc <> unknown -> sc' <> unknown -> names <> [] -> names' <> [] ->
  Forall (fun n => is_valid_actor_name n = true) names ->
  Forall (fun n => is_valid_actor_name n = true) names' ->
  build sys sc (join names) = Some p -> build sys' sc' (join names') = Some p ->
  sys = sys' /\ sc = sc' /\ names = names'.
Proof.
  intros Hsc Hsc' Hne Hne' H H' E E'.
  assert (Hs : is_valid_system_name sys = true).
  { unfold build in E. destruct (is_valid_system_name sys); [reflexivity|discriminate]. }
  assert (Hs' : is_valid_system_name sys' = true).
  { unfold build in E'. destruct (is_valid_system_name sys'); [reflexivity|discriminate]. }
  destruct (build_parce sys sc names Hs Hsc Hne H) as (q & Eq & P).
  destruct (build_parce sys' sc' names' Hs' Hsc' Hne' H') as (q' & Eq' & P').
  rewrite E in Eq. rewrite E' in Eq'. inversion Eq; inversion Eq'; subst. rewrite P in P'. inversion P'; auto.
Qed.

(* ---- soundness ---- *)
Lemma decode_names_sound f s l : decode_names f s = Some l -> (s = [] \/ exists t, s = slash :: t) ->
  Forall (fun n => n <> [] /\ slash_free n) l /\ squeeze s = match l with [] => [] | _ => slash :: join l end.
Proof.
  revert s l; induction f as [|f IH]; intros s l E Hs.
  - destruct s; simpl in E; [|discriminate]. inversion E; subst. split; [constructor|reflexivity].
  - destruct s as [|c s]; simpl in E; [inversion E; subst; split; [constructor|reflexivity]|].
    destruct Hs as [Hs|(t & Hs)]; [discriminate|]. inversion Hs; subst c t. clear Hs.
    destruct (find_slash s) as [a b] eqn:Ef. destruct (decode_names f b) as [l'|] eqn:E'; [|discriminate].
    apply find_slash_inv in Ef. destruct Ef as (-> & Ha & Hb).
    destruct (IH _ _ E' Hb) as [HF HS].
    assert (Hsq : forall x, slash_free x -> squeeze (x ++ b) = x ++ squeeze b).
    { induction x as [|d x IHx]; intros Hx; [reflexivity|]. change ((d :: x) ++ b) with (d :: (x ++ b)). cbn [squeeze].
      destruct (is_slash_spec d) as [->|N]; [exfalso; apply Hx; left; reflexivity|]. simpl andb. cbv iota.
      rewrite IHx; [reflexivity|]. intros G; apply Hx; right; exact G. }
    destruct a as [|d a].
    + simpl nonempty in E. cbv iota in E. inversion E; subst l'. split; [exact HF|].
      change ([] ++ b) with b. cbn [squeeze]. destruct Hb as [->|(t & ->)]; [exact HS|]. exact HS.
    + simpl nonempty in E. cbv iota in E. inversion E; subst l. split.
      * constructor; [split; [discriminate|exact Ha]|exact HF].
      * change ((d :: a) ++ b) with (d :: (a ++ b)).
        change (squeeze (slash :: d :: a ++ b)) with (if is_slash d then squeeze (d :: a ++ b) else slash :: squeeze (d :: a ++ b)).
        destruct (is_slash_spec d) as [->|N]; [exfalso; apply Ha; left; reflexivity|].
        change (d :: a ++ b) with ((d :: a) ++ b). rewrite Hsq by exact Ha. rewrite HS.
        destruct l' as [|y l']; [rewrite app_nil_r; reflexivity|reflexivity].
Qed.

Lemma parce_sound p e :
  parce p false = Accept e ->
  exists rest,
    p = path_root ++ e_system e ++ [slash] ++ scope_to_str (e_scope e) ++ rest /\
    slash_free (e_system e) /\ e_scope e <> unknown /\ e_names e <> [] /\
    Forall (fun n => n <> [] /\ slash_free n) (e_names e) /\
    (exists t, rest = slash :: t) /\
    path_root ++ e_system e ++ [slash] ++ scope_to_str (e_scope e) ++ squeeze rest
      = show (e_system e) (e_scope e) (e_names e).
Proof.
  unfold parce. destruct (equal_prefix path_root p) as [[|]|] eqn:Ep; try discriminate.
  apply equal_prefix_inv in Ep. destruct Ep as (b & ->). rewrite skipn_app_exact.
  destruct (find_slash b) as [sys e1] eqn:E1. destruct e1 as [|c b2]; [discriminate|].
  destruct (find_slash b2) as [sc e2] eqn:E2.
  apply find_slash_inv in E1. destruct E1 as (-> & Hsys & [D|(t & D)]); [discriminate|]. inversion D; subst c b2. clear D.
  apply find_slash_inv in E2. destruct E2 as (-> & _ & Hd).
  intros H.
  assert (Hx : str_to_scope sc <> unknown /\ exists l, decode_names (S (length e2)) e2 = Some l /\ l <> [] /\ e = Elements sys (str_to_scope sc) l).
  { destruct (str_to_scope sc); try discriminate;
      (split; [discriminate|]); (destruct (decode_names (S (length e2)) e2) as [[|n l]|]; try discriminate);
      inversion H; eexists; (split; [reflexivity|]); (split; [discriminate|reflexivity]). }
  clear H. destruct Hx as (Hsc & l & El & Hl & ->). cbn [e_system e_scope e_names].
  destruct (decode_names_sound _ _ _ El Hd) as [HF HS].
  pose proof (str_to_scope_inv sc (str_to_scope sc) eq_refl Hsc) as Esc.
  exists e2. repeat split; try assumption.
  - rewrite Esc at 1. reflexivity.
  - destruct Hd as [->|Hd]; [|exact Hd]. simpl in El. inversion El; subst. congruence.
  - rewrite HS. unfold show. destruct l; [congruence|reflexivity].
Qed.

Lemma equal_prefix_total r p : length r <= length p -> equal_prefix r p <> None.
Proof.
  revert p; induction r as [|c r IH]; intros p L; simpl; [discriminate|]. destruct p as [|d p]; simpl in *; [lia|].
  destruct (Ascii.eqb c d); [apply IH; lia|discriminate].
Qed.
Lemma parce_no_ub p h : length path_root <= length p -> parce p h <> UB.
Proof.
  intros L. unfold parce. pose proof (equal_prefix_total path_root p L). destruct (equal_prefix path_root p) as [[|]|]; try congruence.
  destruct (find_slash _) as [sys [|c b2]]; [congruence|]. destruct (find_slash b2) as [sc e2].
  destruct (decode_names_fuel (S (length e2)) e2) as (l & ->); [lia|].
  destruct (str_to_scope sc), h, l; discriminate.
Qed.
Lemma parce_ub_iff p h : parce p h = UB <-> exists c t, path_root = p ++ c :: t.
Proof.
  split.
  - intros H. unfold parce in H. destruct (equal_prefix path_root p) as [[|]|] eqn:E.
    + exfalso. destruct (find_slash _) as [sys [|c b2]]; [discriminate|]. destruct (find_slash b2) as [sc e2].
      destruct (decode_names_fuel (S (length e2)) e2) as (l & El); [lia|]. rewrite El in H.
      destruct (str_to_scope sc), h, l; discriminate.
    + discriminate.
    + clear H. revert p E. generalize path_root. intros r. induction r as [|c r IH]; intros p E; simpl in E; [discriminate|].
      destruct p as [|d p]; [exists c, r; reflexivity|]. destruct (Ascii.eqb_spec c d) as [->|]; [|discriminate].
      destruct (IH p E) as (c & t & Ert). exists c, t. simpl. rewrite Ert. reflexivity.
  - intros (c & t & E). unfold parce. rewrite E.
    assert (H : equal_prefix (p ++ c :: t) p = None).
    { clear. induction p as [|d p IH]; simpl; [reflexivity|]. rewrite Ascii.eqb_refl. exact IH. }
    rewrite H. reflexivity.
Qed.
Lemma parce_rejects_root p h :
  (forall t, p <> path_root ++ t) -> parce p h <> UB -> parce p h = Reject.
Proof.
  intros H U. unfold parce in *. destruct (equal_prefix path_root p) as [[|]|] eqn:E; [|reflexivity|congruence].
  apply equal_prefix_inv in E. destruct E as (t & ->). destruct (H t eq_refl).
Qed.
Lemma parce_accept_iff p e :
  parce p false = Accept e <->
  exists rest, p = path_root ++ e_system e ++ [slash] ++ scope_to_str (e_scope e) ++ slash :: rest /\
    slash_free (e_system e) /\ e_scope e <> unknown /\ e_names e <> [] /\
    decode_names (S (S (length rest))) (slash :: rest) = Some (e_names e).
Proof.
  split.
  - intros H. pose proof H as H0. apply parce_sound in H. destruct H as (r & Ep & H1 & H2 & H3 & H4 & (t & Er) & H6).
    exists t. rewrite Ep in H0. unfold parce in H0. rewrite equal_prefix_app, skipn_app_exact in H0.
    change (e_system e ++ [slash] ++ scope_to_str (e_scope e) ++ r) with (e_system e ++ slash :: (scope_to_str (e_scope e) ++ r)) in H0.
    rewrite find_slash_app in H0 by exact H1. subst r. rewrite find_slash_app in H0 by apply scope_slash_free.
    rewrite str_to_scope_to_str in H0. repeat split; try assumption.
    change (length (slash :: t)) with (S (length t)) in H0.
    destruct (decode_names (S (S (length t))) (slash :: t)) as [[|n l]|];
      destruct (e_scope e) eqn:Es; try congruence; inversion H0; subst; reflexivity.
  - intros (t & -> & H1 & H2 & H3 & H4). unfold parce. rewrite equal_prefix_app, skipn_app_exact.
    change (e_system e ++ [slash] ++ scope_to_str (e_scope e) ++ slash :: t) with (e_system e ++ slash :: (scope_to_str (e_scope e) ++ slash :: t)).
    rewrite find_slash_app by exact H1. rewrite find_slash_app by apply scope_slash_free.
    rewrite str_to_scope_to_str. change (length (slash :: t)) with (S (length t)). rewrite H4. destruct e as [s sc n]; simpl in *.
    destruct n; [congruence|]. destruct sc; try reflexivity; congruence.
Qed.

(* ---- get_name ---- *)
Definition go := fix go (s best : str) (seen : bool) : str :=
     match s with
     | [] => if seen then best else []
     | c :: t => if is_slash c then go t t true else go t best seen
     end.
Lemma go_free s best seen : slash_free s -> go s best seen = if seen then best else [].
Proof.
  revert best seen; induction s as [|c s IH]; intros best seen H; [reflexivity|]. cbn [go].
  destruct (is_slash_spec c) as [->|N]; [exfalso; apply H; left; reflexivity|]. apply IH. intros G; apply H; right; exact G.
Qed.
Lemma go_last a n best seen : slash_free n -> go (a ++ slash :: n) best seen = n.
Proof.
  revert best seen; induction a as [|c a IH]; intros best seen H.
  - cbn [app go]. rewrite is_slash_refl. rewrite go_free by exact H. reflexivity.
  - cbn [app go]. destruct (is_slash c); apply IH; exact H.
Qed.
Lemma join_last names x : slash_free x -> exists a, slash :: join (names ++ [x]) = a ++ slash :: x.
Proof.
  induction names as [|n names IH]; intros H; [exists []; reflexivity|].
  destruct (IH H) as (a & E). exists (slash :: n ++ a).
  change ((n :: names) ++ [x]) with (n :: (names ++ [x])).
  destruct (names ++ [x]) as [|l l0] eqn:En; [destruct names; discriminate|].
  change (join (n :: l :: l0)) with (n ++ slash :: join (l :: l0)). rewrite E. simpl. rewrite <- app_assoc. reflexivity.
Qed.
Lemma get_name_show sys sc names x : slash_free x -> get_name (show sys sc (names ++ [x])) = x.
Proof.
  intros H. unfold get_name, show. fold go.
  destruct (join_last names x H) as (a & E).
  change ([slash] ++ join (names ++ [x])) with (slash :: join (names ++ [x])). rewrite E.
  rewrite !app_assoc. apply go_last. exact H.
Qed.
